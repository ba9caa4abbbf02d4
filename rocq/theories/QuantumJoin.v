(** * QuantumJoin: connecting pairs of loose ends of an operator's network *)
From Verif Require Import Prelude Algebra Tensor TensorFacts Einsum EinsumFacts NetworkFacts Graph GraphBase GraphConnect GraphContract GraphOps GraphValue GraphLaws GraphJoin GraphQuery GraphQueryFacts GraphCopy GraphCopyFacts GraphDensity Quantum QuantumSpec QuantumFacts QuantumNodes QuantumCopy.
Set Implicit Arguments.
Unset Strict Implicit.

Section QJ.
  Context {R : cjr}.
  Notation st := (@st R).
  Notation M := (@M R).
  Implicit Types (s : st) (e f g : eid) (n m : nid).
  Notation "x <- m ;; k" := (bind m (fun x => k)) (at level 61, m at next level, right associativity).
  Notation "m ;;; k" := (bind m (fun _ => k)) (at level 61, right associativity).
  Add Ring Rqj : (rsr R).

  Fixpoint connects (es fs : list eid) : M unit :=
    match es, fs with e :: es', f :: fs' => connect e f ;;; connects es' fs' | _, _ => ret tt end.

  Record joined s s' (es fs : list eid) : Prop := {
    jn_wf : wf s';
    jn_nn : s_nn s' = s_nn s;
    jn_ne : s_ne s <= s_ne s';
    jn_same : same_nodes s s';
    jn_old : forall x, x < s_ne s -> s_edges s' x = s_edges s x;
    jn_slot : forall p x, slot s p = Some x -> ~ In x (es ++ fs) -> slot s' p = Some x;
    jn_pair : Forall2 (fun e f => exists g p q, s_ne s <= g /\ slot s p = Some e /\ slot s q = Some f /\ slot s' p = Some g /\ slot s' q = Some g /\
      s_edges s' g = Some (Edge (fst p) (snd p) (Some q) false)) es fs;
    jn_val : forall ns a, NoDup ns -> (forall x, In x (es ++ fs) -> loose s ns x) ->
      netval s' ns a = lsum (idxs (map (edim s) es)) (fun vs => netval s ns (binds Nat.eq_dec (binds Nat.eq_dec a fs vs) es vs))
  }.

  Lemma connects_ok es : forall fs s, wf s -> NoDup (es ++ fs) -> (forall x, In x (es ++ fs) -> exists p, slot s p = Some x /\ s_edges s x = Some (Edge (fst p) (snd p) None false)) ->
    Forall2 (fun e f => edim s e = edim s f) es fs -> exists s', connects es fs s = (s', Some tt) /\ joined s s' es fs.
  Proof.
    induction es as [|e es IH]; intros fs s W HN HL Hdim; inversion Hdim as [|? f ? fs' Hde Hdes]; subst; cbn [connects].
    { exists s. split; [reflexivity|]. split; auto; [apply same_nodes_refl|].
      intros ns a _ _. cbn [map idxs]. rewrite lsum_cons, lsum_nil. cbn [binds]. ring. }
    rename fs' into fs. pose proof HN as HN0.
    cbn [app] in HN. apply NoDup_cons_iff in HN. destruct HN as [He HN].
    pose proof (Permutation_NoDup (Permutation_sym (Permutation_middle es fs f)) HN) as HN'. apply NoDup_cons_iff in HN'. destruct HN' as [Hf HN'].
    destruct (HL e ltac:(left; reflexivity)) as (p & Hp & Ep).
    destruct (HL f ltac:(cbn [app]; right; apply in_or_app; right; left; reflexivity)) as (q & Hq & Eq).
    assert (e <> f) as Hef by (intros ->; apply He, in_or_app; right; left; reflexivity).
    destruct (proj2 (@connect_total _ s p q e f _ _ W Hp Hq Ep Eq)) as (s1 & g & H1).
    { cbn. split; [reflexivity|]. split; [reflexivity|]. split; [congruence|]. rewrite (edim_dimat W Hq), (edim_dimat W Hp). congruence. }
    destruct (connect_inv W (ex_intro _ _ Hp) (ex_intro _ _ Hq) H1) as (p' & q' & C).
    assert (q' = q) as -> by (pose proof (dangling_slot W (cp_p2 C) Eq eq_refl) as K; cbn in K; rewrite <- surjective_pairing in K; exact K).
    assert (p' = p) as -> by (pose proof (dangling_slot W (cp_p1 C) Ep eq_refl) as K; cbn in K; rewrite <- surjective_pairing in K; exact K).
    pose proof (connect_wf W C) as W1.
    assert (forall z x, slot s z = Some x -> x <> e -> x <> f -> slot s1 z = Some x /\ s_edges s1 x = s_edges s x) as Keep.
    { intros z x Hz N1 N2. split.
      - rewrite (cp_slot C). destruct (slot_eqb_spec z p) as [->|]; [congruence|]. destruct (slot_eqb_spec z q) as [->|]; [congruence|]. exact Hz.
      - apply (cp_edges C). rewrite (cp_e C). destruct (slot_lt W Hz). lia. }
    assert (forall x, In x (es ++ fs) -> x <> e /\ x <> f) as Hne.
    { intros x Hx. split; intros ->; [|contradiction]. apply He. apply in_app_or in Hx. apply in_or_app. destruct Hx; [left|right; right]; assumption. }
    assert (forall x, In x (es ++ fs) -> In x ((e :: es) ++ f :: fs)) as Hsub.
    { intros x Hx. cbn [app]. right. apply in_app_or in Hx. apply in_or_app. destruct Hx; [left|right; right]; assumption. }
    assert (forall x, In x (es ++ fs) -> exists z, slot s z = Some x /\ slot s1 z = Some x /\ s_edges s x = Some (Edge (fst z) (snd z) None false) /\ s_edges s1 x = Some (Edge (fst z) (snd z) None false)) as HL1.
    { intros x Hx. destruct (HL x (Hsub x Hx)) as (z & Q2 & Q3). destruct (Hne x Hx) as [N1 N2]. destruct (Keep z x Q2 N1 N2) as [K1 K2].
      exists z. rewrite K2. auto. }
    assert (forall x, In x (es ++ fs) -> edim s1 x = edim s x) as Hed.
    { intros x Hx. destruct (HL1 x Hx) as (z & Q1 & Q2 & _).
      pose proof (edim_dimat W1 Q2) as D1. rewrite (same_nodes_dimat z (cp_same C)), (edim_dimat W Q1) in D1. congruence. }
    destruct (IH fs s1 W1 HN') as (s' & H2 & J).
    { intros x Hx. destruct (HL1 x Hx) as (z & Q1 & Q2 & Q3 & Q4). eauto. }
    { clear - Hdes Hed. assert (forall x, In x es \/ In x fs -> edim s1 x = edim s x) as Q by (intros x Hx; apply Hed, in_or_app; exact Hx). clear Hed.
      induction Hdes as [|x y l l' Hx _ IHl]; constructor.
      - rewrite !Q; auto; [right; left; reflexivity|left; left; reflexivity].
      - apply IHl. intros z [Hz|Hz]; apply Q; [left|right]; right; exact Hz. }
    assert (g = s_ne s) as Hg by apply (cp_e C).
    assert (forall x, In x (es ++ fs) -> x < s_ne s) as Hlt.
    { intros x Hx. destruct (HL1 x Hx) as (z & Q & _). apply (slot_lt W Q). }
    assert (~ In g (es ++ fs)) as Hgn by (intros K; apply Hlt in K; lia).
    pose proof (cp_ne C) as Hne1.
    exists s'. unfold bind. rewrite H1. split; [exact H2|]. split.
    - apply (jn_wf J).
    - rewrite (jn_nn J). apply (cp_nn C).
    - pose proof (jn_ne J). lia.
    - exact (same_nodes_trans (cp_same C) (jn_same J)).
    - intros x Hx. rewrite (jn_old J) by lia. apply (cp_edges C). lia.
    - intros z x Hz Hx. cbn [app] in Hx. apply (jn_slot J).
      + apply Keep; [exact Hz| |]; intros ->; apply Hx; [left; reflexivity|right; apply in_or_app; right; left; reflexivity].
      + intros K. apply Hx. right. apply in_app_or in K. apply in_or_app. destruct K; [left|right; right]; assumption.
    - constructor.
      + exists g, p, q. split; [lia|]. split; [exact Hp|]. split; [exact Hq|]. split; [|split].
        * apply (jn_slot J); [|exact Hgn]. rewrite (cp_slot C). destruct (slot_eqb_spec p p); [|congruence]. reflexivity.
        * apply (jn_slot J); [|exact Hgn]. rewrite (cp_slot C). destruct (slot_eqb_spec q q); [|congruence]. rewrite orb_true_r. reflexivity.
        * rewrite (jn_old J) by lia. apply (cp_edge C).
      + assert (forall x y, In x es -> In y fs -> (exists g0 p0 q0, s_ne s1 <= g0 /\ slot s1 p0 = Some x /\ slot s1 q0 = Some y /\ slot s' p0 = Some g0 /\ slot s' q0 = Some g0 /\ s_edges s' g0 = Some (Edge (fst p0) (snd p0) (Some q0) false)) ->
           exists g0 p0 q0, s_ne s <= g0 /\ slot s p0 = Some x /\ slot s q0 = Some y /\ slot s' p0 = Some g0 /\ slot s' q0 = Some g0 /\ s_edges s' g0 = Some (Edge (fst p0) (snd p0) (Some q0) false)) as Back.
        { intros x y Hx Hy (g0 & p0 & q0 & T1 & T2 & T3 & T4 & T5 & T6). exists g0, p0, q0. split; [lia|]. split; [|split; [|auto]].
          - pose proof (cp_slot C p0) as K. rewrite T2 in K. destruct (slot_eqb p0 p || slot_eqb p0 q); [|congruence].
            injection K as ->. exfalso. apply Hgn, in_or_app. left. exact Hx.
          - pose proof (cp_slot C q0) as K. rewrite T3 in K. destruct (slot_eqb q0 p || slot_eqb q0 q); [|congruence].
            injection K as ->. exfalso. apply Hgn, in_or_app. right. exact Hy. }
        pose proof (jn_pair J) as Hjoin. clear - Hjoin Back. induction Hjoin as [|x y l l' Hx _ IHl]; constructor.
        * apply Back; [left; reflexivity|left; reflexivity|exact Hx].
        * apply IHl. intros u v Hu Hv. apply Back; right; assumption.
    - intros ns a HS HLs. rewrite (jn_val J) by (auto; intros x Hx; destruct (HLs x (Hsub x Hx)) as (z & Z1 & Z2 & Z3); destruct (Hne x Hx) as [N1 N2];
        destruct (Keep z x Z2 N1 N2) as [K1 K2]; exists z; rewrite K2; auto).
      assert (length fs = length es) as HLen by (clear - Hdes; induction Hdes; cbn; congruence).
      assert (In (fst p) ns) as Sp.
      { destruct (HLs e ltac:(left; reflexivity)) as (z & Z1 & Z2 & _). pose proof (dangling_slot W Z2 Ep eq_refl) as K. cbn in K. rewrite <- surjective_pairing in K. rewrite <- K. exact Z1. }
      assert (In (fst q) ns) as Sq.
      { destruct (HLs f ltac:(cbn [app]; right; apply in_or_app; right; left; reflexivity)) as (z & Z1 & Z2 & _). pose proof (dangling_slot W Z2 Eq eq_refl) as K. cbn in K. rewrite <- surjective_pairing in K. rewrite <- K. exact Z1. }
      cbn [map]. rewrite lsum_idxs_cons. unfold nsum at 1. rewrite lsum_swap.
      replace (map (edim s1) es) with (map (edim s) es) by (apply map_ext_in; intros x Hx; symmetry; apply Hed, in_or_app; left; exact Hx).
      apply lsum_ext. intros vs Hvs. rewrite (connect_value _ W C HS Sp Sq). unfold nsum. apply lsum_ext. intros i _.
      apply netval_ext_asg. intros x _. symmetry. rewrite binds_step; auto; [|apply In_idxs in Hvs; rewrite (valid_length Hvs), map_length; reflexivity].
      unfold upd. destruct (Nat.eq_dec x e), (Nat.eq_dec x f); congruence.
  Qed.

  (** what joining does to an operator: the joined edges disappear, the rest stays *)
  Lemma joined_slot_new s s' es fs p x : wf s -> joined s s' es fs -> slot s p = Some x -> In x (es ++ fs) -> (forall z, In z (es ++ fs) -> exists n, open_on s n z) ->
    exists g p', s_ne s <= g /\ slot s' p = Some g /\ slot s' p' = Some g /\ p' <> p /\ (exists y, In y (es ++ fs) /\ slot s p' = Some y).
  Proof.
    intros W J Hp Hx Hop.
    assert (forall z a b, slot s a = Some z -> slot s b = Some z -> In z (es ++ fs) -> a = b) as Uq.
    { intros z a b Ha Hb Hz. destruct (Hop z Hz) as (n & k & _ & Hu). rewrite (Hu a Ha), (Hu b Hb). reflexivity. }
    pose proof (jn_pair J) as HP. apply in_app_or in Hx.
    assert (exists e f, In e es /\ In f fs /\ (x = e \/ x = f) /\ exists g p q, s_ne s <= g /\ slot s p = Some e /\ slot s q = Some f /\ slot s' p = Some g /\ slot s' q = Some g /\
      s_edges s' g = Some (Edge (fst p) (snd p) (Some q) false)) as (e & f & He & Hf & Hxe & g & a & b & G1 & G2 & G3 & G4 & G5 & G6).
    { clear - HP Hx. induction HP as [|e f es fs H HP IH]; [destruct Hx as [[]|[]]|].
      destruct Hx as [[<-|Hx]|[<-|Hx]]; try solve [exists e, f; split; [left; reflexivity|]; split; [left; reflexivity|]; auto];
        (destruct IH as (e' & f' & H1 & H2 & H3); [auto|]; exists e', f'; split; [right; exact H1|]; split; [right; exact H2|exact H3]). }
    assert (a <> b) as Hab.
    { intros ->. pose proof (jn_wf J) as W'. destruct (wf_slot W' G4) as (ed & Hed & _ & _ & ND & _). rewrite G6 in Hed. injection Hed as <-. unfold ends in ND. cbn in ND. apply NoDup_cons_iff in ND. destruct ND as [ND _]. apply ND. left. apply surjective_pairing. }
    destruct Hxe as [->| ->].
    - exists g, b. assert (a = p) as -> by (apply (Uq e); auto; apply in_or_app; left; exact He).
      split; [exact G1|]. split; [exact G4|]. split; [exact G5|]. split; [congruence|]. exists f. split; [apply in_or_app; right; exact Hf|exact G3].
    - exists g, a. assert (b = p) as -> by (apply (Uq f); auto; apply in_or_app; right; exact Hf).
      split; [exact G1|]. split; [exact G5|]. split; [exact G4|]. split; [congruence|]. exists e. split; [apply in_or_app; left; exact He|exact G2].
  Qed.
End QJ.
