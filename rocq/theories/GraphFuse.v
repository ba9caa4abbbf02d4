(** * GraphFuse: value of the network when several parallel edges become one (or the reverse) *)
From Verif Require Import Prelude Algebra Tensor TensorFacts Einsum EinsumFacts NetworkFacts Graph GraphBase GraphContract GraphOps GraphValue GraphRetail.
Set Implicit Arguments.
Unset Strict Implicit.

Section FuseOpen.
  Variable L : Type.
  Variable Leq : forall x y : L, {x = y} + {x <> y}.
  Context {R : csr}.
  Notation factor := (factor L R).
  Notation value := (@value L Leq R).
  Notation netprod := (@netprod L R).
  Notation repeated := (@repeated L Leq).
  Notation cnt := (count_occ Leq).
  Notation binds := (@binds L Leq).

  Lemma binds_pointwise a b ES vs x : (In x ES -> length vs = length ES) -> (~ In x ES -> a x = b x) -> binds a ES vs x = binds b ES vs x.
  Proof.
    intros H1 H2. destruct (in_dec Leq x ES) as [Hx|Hx].
    - apply binds_agree; auto.
    - rewrite !binds_other by exact Hx. auto.
  Qed.

  Lemma esum_binds dim rep (f : asg L -> R) ES vs a : ext f -> length vs = length ES -> (forall x, In x ES -> ~ In x rep) ->
    esum Leq dim rep f (binds a ES vs) = esum Leq dim rep (fun b => f (binds b ES vs)) a.
  Proof.
    intros Hf Hl Hd.
    assert (forall rep a b, (forall x, In x ES -> ~ In x rep) -> (forall x, b x = binds a ES vs x) ->
        esum Leq dim rep f b = esum Leq dim rep (fun b => f (binds b ES vs)) a) as G.
    { clear a rep Hd. induction rep as [|l r IH]; intros a b Hd E.
      - cbn. apply Hf. exact E.
      - rewrite !esum_cons. apply nsum_ext. intros i _. apply IH.
        + intros x Hx K. apply (Hd x Hx). right. exact K.
        + intros x. destruct (in_dec Leq x ES) as [Hx|Hx].
          * rewrite upd_other by (intros ->; apply (Hd l Hx); left; reflexivity). rewrite E. apply binds_agree; auto.
          * rewrite binds_other by exact Hx. unfold upd. destruct (Leq x l); [reflexivity|]. rewrite E. apply binds_other. exact Hx. }
    apply G; auto.
  Qed.

  (** fusing the open labels [ES] into one open label [f] *)
  Theorem value_fuse_open dim dim' (part part' rest net net' : list factor) ES f M a :
    Permutation net (part ++ rest) -> Permutation net' (part' ++ rest) ->
    Permutation (net_labels part) (ES ++ M) -> Permutation (net_labels part') ([f] ++ M) ->
    NoDup ES -> (forall x, In x ES -> ~ In x (M ++ net_labels rest)) -> ~ In f (M ++ net_labels rest) ->
    (forall x, In x (M ++ net_labels rest) -> dim' x = dim x) ->
    (forall b, (forall x, In x (repeated (M ++ net_labels rest)) -> b x < dim' x) ->
       (forall x, ~ In x (repeated (M ++ net_labels rest)) -> b x = a x) ->
       netprod part' b = netprod part (binds b ES (unravel (map dim ES) (b f)))) ->
    value dim' net' a = value dim net (binds a ES (unravel (map dim ES) (a f))).
  Proof.
    intros Hn Hn' HP HP' HE D Df Edim' Hpp.
    rewrite (value_perm Leq dim _ Hn), (value_perm Leq dim' a Hn'). unfold Einsum.value, einsum.
    set (M' := M ++ net_labels rest) in *.
    assert (forall C N, NoDup C -> (forall x, In x C -> ~ In x N) -> Permutation (repeated (C ++ N)) (repeated N)) as Hrep1.
    { intros C N HC HD. apply NoDup_Permutation; try apply NoDup_repeated. intros x. rewrite !In_repeated, count_occ_app.
      destruct (in_dec Leq x C) as [Hx|Hx].
      - rewrite (cnt_NoDup_in Leq HC Hx), (cnt_notin Leq (HD x Hx)). lia.
      - rewrite (cnt_notin Leq Hx). lia. }
    assert (Permutation (repeated (net_labels (part ++ rest))) (repeated M')) as H1.
    { rewrite <- (Hrep1 ES M' HE D). apply repeated_perm. rewrite net_labels_app, HP. unfold M'. rewrite <- app_assoc. reflexivity. }
    assert (Permutation (repeated (net_labels (part' ++ rest))) (repeated M')) as H2.
    { rewrite <- (Hrep1 [f] M'); [|repeat constructor; intros []|intros x [<-|[]]; exact Df].
      apply repeated_perm. rewrite net_labels_app, HP'. unfold M'. rewrite <- app_assoc. reflexivity. }
    assert (forall x, In x (repeated M') -> In x M') as Hrep
      by (intros x Hx; apply In_repeated in Hx; apply (count_occ_In Leq); lia).
    rewrite (@esum_perm _ Leq R dim _ _ _ _ (dep_ext (@netprod_dep _ _ _)) (NoDup_repeated Leq _) H1).
    rewrite (@esum_perm _ Leq R dim' _ _ _ a (dep_ext (@netprod_dep _ _ _)) (NoDup_repeated Leq _) H2).
    rewrite (@esum_ext_dim _ Leq R dim' dim (repeated M')) by (intros x Hx; apply Edim', Hrep, Hx).
    rewrite esum_binds.
    - apply esum_ext_range. intros b Hb1 Hb2. rewrite !netprod_app.
      assert (b f = a f) as Ef by (apply Hb1; intros K; apply Df, Hrep, K). f_equal.
      + rewrite Hpp; [rewrite Ef; reflexivity| |exact Hb1]. intros x Hx. rewrite Edim' by (apply Hrep; exact Hx). apply Hb2. exact Hx.
      + apply netprod_dep. intros x Hx. rewrite binds_other; [reflexivity|]. intros K. apply (D x K). unfold M'. apply in_or_app. auto.
    - apply (dep_ext (@netprod_dep _ _ _)).
    - rewrite unravel_length, map_length. reflexivity.
    - intros x Hx K. apply (D x Hx). apply Hrep. exact K.
  Qed.
End FuseOpen.

Section GFuse.
  Context {R : csr}.
  Notation st := (@st R).
  Notation node := (@node R).
  Implicit Types (s : st) (e : eid).
  Notation cnt := (count_occ Nat.eq_dec).

  Lemma incl_split (P S : list nat) : NoDup P -> NoDup S -> incl P S -> exists S', Permutation S (P ++ S').
  Proof.
    revert S. induction P as [|p r IH]; intros S HP HS HI; [exists S; reflexivity|].
    apply NoDup_cons_iff in HP. destruct HP as [Hp HP].
    destruct (in_split p S (HI p (or_introl eq_refl))) as (l1 & l2 & ->).
    assert (Permutation (l1 ++ p :: l2) (p :: l1 ++ l2)) as P1 by (symmetry; apply Permutation_middle).
    destruct (IH (l1 ++ l2)) as (S' & HS').
    - exact HP.
    - apply (Permutation_NoDup P1) in HS. apply NoDup_cons_iff in HS. tauto.
    - intros x Hx. assert (In x (l1 ++ p :: l2)) as K by (apply HI; right; exact Hx).
      apply (Permutation_in _ P1) in K. destruct K as [->|K]; [contradiction|exact K].
    - exists S'. rewrite P1. cbn. constructor. exact HS'.
  Qed.

  Lemma net_of_app s P Q : net_of s (P ++ Q) = net_of s P ++ net_of s Q.
  Proof. apply map_app. Qed.

  Record fuse_data s s' (P : list nid) (ES : list eid) (f : eid) (M : list eid) (mult : nat) : Prop := {
    fd_NP : NoDup P;
    fd_others : forall m, ~ In m P -> s_nodes s' m = s_nodes s m;
    fd_lab : Permutation (net_labels (net_of s P)) (concat (repeat ES mult) ++ M);
    fd_lab' : Permutation (net_labels (net_of s' P)) (repeat f mult ++ M);
    fd_ES : NoDup ES;
    fd_ESM : forall x, In x ES -> ~ In x M;
    fd_fM : ~ In f M;
    fd_only : forall x p, In x ES -> slot s p = Some x -> In (fst p) P;
    fd_f : forall p, ~ In (fst p) P -> slot s p <> Some f;
    fd_fits : forall m, In m P -> fits (upd Nat.eq_dec (edim s) f (nprod (map (edim s) ES))) (fac s' m);
    fd_node : forall b, b f < nprod (map (edim s) ES) -> (forall x, In x M -> b x < edim s x) -> forall n, In n P ->
       fval (fac s' n) b = fval (fac s n) (binds Nat.eq_dec b ES (unravel (map (edim s) ES) (b f)))
  }.

  Lemma fd_val s s' P ES f M mult : fuse_data s s' P ES f M mult ->
    forall b, b f < nprod (map (edim s) ES) -> (forall x, In x M -> b x < edim s x) ->
       netprod (net_of s' P) b = netprod (net_of s P) (binds Nat.eq_dec b ES (unravel (map (edim s) ES) (b f))).
  Proof.
    intros F b H1 H2. pose proof (fd_node F H1 H2) as H. clear - H. induction P as [|n P IH]; [reflexivity|].
    cbn [net_of map]. rewrite !netprod_cons. f_equal; [apply H; left; reflexivity|]. apply IH. intros m Hm. apply H. right. exact Hm.
  Qed.

  Section FD.
    Variables (s s' : st) (P : list nid) (ES : list eid) (f : eid) (M : list eid) (mult : nat).
    Hypothesis W : wf s.
    Hypothesis W' : wf s'.
    Hypothesis F : fuse_data s s' P ES f M mult.
    Hypothesis Hm : 1 <= mult.
    Let dim' := upd Nat.eq_dec (edim s) f (nprod (map (edim s) ES)).

    Lemma fd_rest S' x : (forall m, In m S' -> ~ In m P) -> In x (net_labels (net_of s S')) -> ~ In x ES /\ x <> f.
    Proof.
      intros HS Hx. apply (In_net_labels S' x W) in Hx. destruct Hx as (m & k & Hmm & Hs). specialize (HS m Hmm). split.
      - intros K. apply HS. apply (fd_only F K Hs).
      - intros ->. apply (fd_f F (p := (m, k)) HS Hs).
    Qed.

    Lemma fd_fits_all m : fits dim' (fac s' m).
    Proof.
      destruct (in_dec Nat.eq_dec m P) as [Hp|Hp]; [apply (fd_fits F Hp)|].
      unfold fac. rewrite (fd_others F Hp). fold (fac s m). pose proof (fac_fits m W) as K. unfold fits in *. rewrite K.
      apply map_ext_in. intros x Hx. unfold dim'. symmetry. apply upd_other. intros ->.
      unfold fac in Hx. destruct (s_nodes s m) as [nd|] eqn:E; [|destruct Hx]. cbn in Hx. apply In_nth_error in Hx. destruct Hx as [k Hk].
      apply (fd_f F (p := (m, k)) Hp). apply (slot_intro E Hk).
    Qed.

    Lemma fd_edim x m k : slot s' (m, k) = Some x -> edim s' x = dim' x.
    Proof.
      intros Hs. pose proof (fac_fits m W') as K1. pose proof (fd_fits_all m) as K2. apply (fits_agree K1 K2).
      apply slot_node in Hs. destruct Hs as (nd & E & Hk). rewrite (fac_node E). cbn. apply (nth_error_In _ _ Hk).
    Qed.

    Lemma fuse_edim : edim s' f = nprod (map (edim s) ES).
    Proof.
      assert (In f (net_labels (net_of s' P))) as K.
      { apply (Permutation_in _ (Permutation_sym (fd_lab' F))). apply in_or_app. left. destruct mult; [lia|left; reflexivity]. }
      apply (In_net_labels P f W') in K. destruct K as (m & k & _ & K). rewrite (fd_edim K). unfold dim'. apply upd_same.
    Qed.

    Lemma fuse_setup S : NoDup S -> incl P S -> exists S', Permutation S (P ++ S') /\ (forall m, In m S' -> ~ In m P) /\
      net_of s' S' = net_of s S' /\
      Permutation (net_labels (net_of s' S)) (repeat f mult ++ M ++ net_labels (net_of s S')) /\
      Permutation (net_labels (net_of s S)) (concat (repeat ES mult) ++ M ++ net_labels (net_of s S')).
    Proof.
      intros HS HI. destruct (incl_split (fd_NP F) HS HI) as (S' & HP). exists S'. split; [exact HP|].
      assert (forall m, In m S' -> ~ In m P) as D.
      { apply (Permutation_NoDup HP) in HS. apply NoDup_app_iff in HS. intros m K1 K2. apply (proj2 (proj2 HS) m K2 K1). }
      split; [exact D|].
      assert (net_of s' S' = net_of s S') as E by (apply net_of_ext; intros m Hx; apply (fd_others F); auto).
      split; [exact E|]. split.
      - rewrite (net_labels_perm (Permutation_map (fac s') HP)). fold (net_of s' (P ++ S')). rewrite net_of_app, net_labels_app, (fd_lab' F), E, <- app_assoc. reflexivity.
      - rewrite (net_labels_perm (Permutation_map (fac s) HP)). fold (net_of s (P ++ S')). rewrite net_of_app, net_labels_app, (fd_lab F), <- app_assoc. reflexivity.
    Qed.

    Lemma fd_dimM S' x : (forall m, In m S' -> ~ In m P) -> In x (M ++ net_labels (net_of s S')) -> dim' x = edim s x.
    Proof.
      intros D Hx. unfold dim'. apply upd_other. intros ->. apply in_app_or in Hx. destruct Hx as [Hx|Hx]; [apply (fd_fM F Hx)|].
      apply (proj2 (fd_rest D Hx) eq_refl).
    Qed.

    (** values below the dimension on the labels that stay *)
    Lemma fd_range S S' a b : NoDup S -> incl P S -> Permutation S (P ++ S') -> (forall m, In m S' -> ~ In m P) ->
      net_of s' S' = net_of s S' ->
      Permutation (net_labels (net_of s' S)) (repeat f mult ++ M ++ net_labels (net_of s S')) ->
      Permutation (net_labels (net_of s S)) (concat (repeat ES mult) ++ M ++ net_labels (net_of s S')) ->
      open_ok s S a \/ open_ok s' S a ->
      (forall x, In x (repeated Nat.eq_dec (M ++ net_labels (net_of s S'))) -> b x < dim' x) ->
      (forall x, x <> f -> ~ In x (repeated Nat.eq_dec (M ++ net_labels (net_of s S'))) -> b x = a x) ->
      forall x, In x M -> b x < edim s x.
    Proof.
      intros HS HI HP D E L' L Ha Hb1 Hb2 x Hx. rewrite <- (fd_dimM D (in_or_app M _ x (or_introl Hx))).
      destruct (in_dec Nat.eq_dec x (repeated Nat.eq_dec (M ++ net_labels (net_of s S')))) as [Hr|Hr]; [apply Hb1; exact Hr|].
      assert (x <> f) as Hxf by (intros ->; apply (fd_fM F Hx)). rewrite (Hb2 x Hxf Hr).
      assert (cnt (M ++ net_labels (net_of s S')) x = 1) as C.
      { rewrite In_repeated in Hr. assert (In x (M ++ net_labels (net_of s S'))) as K by (apply in_or_app; auto).
        apply (count_occ_In Nat.eq_dec) in K. lia. }
      rewrite (fd_dimM D (in_or_app M _ x (or_introl Hx))).
      assert (~ In x (concat (repeat ES mult))) as N1.
      { intros K. apply in_concat in K. destruct K as (l & Hl & K). apply repeat_spec in Hl. subst l. apply (fd_ESM F K Hx). }
      assert (~ In x (repeat f mult)) as N2 by (intros K; apply repeat_spec in K; contradiction).
      destruct Ha as [Ha|Ha].
      - apply Ha. rewrite (cnt_perm Nat.eq_dec x L), count_occ_app, C, (cnt_notin Nat.eq_dec N1). reflexivity.
      - rewrite <- (fd_dimM D (in_or_app M _ x (or_introl Hx))).
        assert (In x (net_labels (net_of s' S))) as K by (apply (Permutation_in _ (Permutation_sym L')); rewrite !in_app_iff; auto).
        apply (In_net_labels S x W') in K. destruct K as (m & k & _ & K). rewrite <- (fd_edim K).
        apply Ha. rewrite (cnt_perm Nat.eq_dec x L'), count_occ_app, C, (cnt_notin Nat.eq_dec N2). reflexivity.
    Qed.

    Theorem fuse_value S a : mult = 2 -> NoDup S -> incl P S -> open_ok s S a \/ open_ok s' S a -> netval s S a = netval s' S a.
    Proof.
      intros Em HS HI Ha. destruct (fuse_setup HS HI) as (S' & HP & D & E & L' & L).
      rewrite (@netval_dim _ s' S dim' a W') by (intros m _; apply fd_fits_all). unfold netval.
      pose proof (fd_lab F) as FL. pose proof (fd_lab' F) as FL'. rewrite Em in FL, FL'. cbn [repeat concat] in FL, FL'. rewrite app_nil_r in FL.
      apply (@value_fuse _ Nat.eq_dec _ (edim s) dim' (net_of s P) (net_of s' P) (net_of s S') _ _ ES f M a).
      - rewrite <- net_of_app. apply Permutation_map. exact HP.
      - rewrite <- E, <- net_of_app. apply Permutation_map. exact HP.
      - rewrite FL, <- app_assoc. reflexivity.
      - exact FL'.
      - apply (fd_ES F).
      - intros x Hx K. apply in_app_or in K. destruct K as [K|K]; [apply (fd_ESM F Hx K)|]. apply (proj1 (fd_rest D K) Hx).
      - intros K. apply in_app_or in K. destruct K as [K|K]; [apply (fd_fM F K)|]. apply (proj2 (fd_rest D K) eq_refl).
      - unfold dim'. apply upd_same.
      - intros x Hx. apply (fd_dimM D Hx).
      - intros b Hb1 Hb2. apply (fd_val F).
        + specialize (Hb1 f (or_introl eq_refl)). unfold dim' in Hb1. rewrite upd_same in Hb1. exact Hb1.
        + apply (@fd_range S S' a b HS HI HP D E L' L Ha).
          * intros x Hx. apply Hb1. right. exact Hx.
          * intros x Hxf Hx. apply Hb2. intros [K|K]; [congruence|contradiction].
    Qed.

    Theorem fuse_value_open S a : mult = 1 -> NoDup S -> incl P S -> a f < nprod (map (edim s) ES) ->
      open_ok s (S) (binds Nat.eq_dec a ES (unravel (map (edim s) ES) (a f))) \/ open_ok s' S a ->
      netval s' S a = netval s S (binds Nat.eq_dec a ES (unravel (map (edim s) ES) (a f))).
    Proof.
      intros Em HS HI Hf Ha. destruct (fuse_setup HS HI) as (S' & HP & D & E & L' & L).
      rewrite (@netval_dim _ s' S dim' a W') by (intros m _; apply fd_fits_all). unfold netval.
      pose proof (fd_lab F) as FL. pose proof (fd_lab' F) as FL'. rewrite Em in FL, FL'. cbn [repeat concat] in FL, FL'. rewrite app_nil_r in FL.
      apply (@value_fuse_open _ Nat.eq_dec _ (edim s) dim' (net_of s P) (net_of s' P) (net_of s S') _ _ ES f M a).
      - rewrite <- net_of_app. apply Permutation_map. exact HP.
      - rewrite <- E, <- net_of_app. apply Permutation_map. exact HP.
      - exact FL.
      - exact FL'.
      - apply (fd_ES F).
      - intros x Hx K. apply in_app_or in K. destruct K as [K|K]; [apply (fd_ESM F Hx K)|]. apply (proj1 (fd_rest D K) Hx).
      - intros K. apply in_app_or in K. destruct K as [K|K]; [apply (fd_fM F K)|]. apply (proj2 (fd_rest D K) eq_refl).
      - intros x Hx. apply (fd_dimM D Hx).
      - intros b Hb1 Hb2. apply (fd_val F).
        + rewrite Hb2; [exact Hf|]. intros K. apply In_repeated in K.
          assert (In f (M ++ net_labels (net_of s S'))) as K' by (apply (count_occ_In Nat.eq_dec); lia).
          apply in_app_or in K'. destruct K' as [K'|K']; [apply (fd_fM F K')|apply (proj2 (fd_rest D K') eq_refl)].
        + intros x Hx.
          assert (~ In x ES) as HxE by (intros K; apply (fd_ESM F K Hx)).
          destruct Ha as [Ha|Ha].
          * apply (@fd_range S S' (binds Nat.eq_dec a ES (unravel (map (edim s) ES) (a f))) (binds Nat.eq_dec b ES (unravel (map (edim s) ES) (a f))) HS HI HP D E L' L (or_introl Ha)) in Hx.
            -- rewrite binds_other in Hx by exact HxE. exact Hx.
            -- intros y Hy. rewrite binds_other; [apply Hb1; exact Hy|]. intros K.
               assert (In y (M ++ net_labels (net_of s S'))) as K' by (apply In_repeated in Hy; apply (count_occ_In Nat.eq_dec); lia).
               apply in_app_or in K'. destruct K' as [K'|K']; [apply (fd_ESM F K K')|apply (proj1 (fd_rest D K') K)].
            -- intros y Hyf Hy. apply binds_pointwise; [rewrite unravel_length, map_length; reflexivity|]. intros _. apply Hb2. exact Hy.
          * apply (@fd_range S S' a b HS HI HP D E L' L (or_intror Ha)); auto.
    Qed.
  End FD.
End GFuse.
