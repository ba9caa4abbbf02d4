(** * GraphSplit: split_edge *)
From Verif Require Import Prelude Algebra Tensor TensorFacts Einsum EinsumFacts NetworkFacts Graph GraphBase GraphContract GraphOps GraphValue GraphOuter GraphConnect GraphJoin GraphBetween GraphRetail GraphFuse GraphFlatten GraphTrace.
Set Implicit Arguments.
Unset Strict Implicit.

Lemma nprod_concat_repeat sh c : nprod (concat (repeat sh c)) = nprod (repeat (nprod sh) c).
Proof.
  induction c as [|c IH]; [reflexivity|]. cbn [repeat concat]. rewrite nprod_app, IH. reflexivity.
Qed.
Lemma valid_concat_repeat v sh c : valid v sh -> valid (concat (repeat v c)) (concat (repeat sh c)).
Proof.
  intros H. induction c as [|c IH]; [constructor|]. cbn [repeat concat]. apply valid_app; assumption.
Qed.
Lemma unravel_repeat sh v c : valid v sh ->
  unravel (repeat (nprod sh) c) (ravel (concat (repeat sh c)) (concat (repeat v c))) = repeat (ravel sh v) c.
Proof.
  intros H. pose proof (valid_length H) as L. pose proof (ravel_lt H) as Hlt. induction c as [|c IH]; [reflexivity|]. cbn [repeat concat].
  rewrite ravel_app by exact L. rewrite nprod_concat_repeat.
  change (nprod sh :: repeat (nprod sh) c) with ([nprod sh] ++ repeat (nprod sh) c).
  rewrite unravel_app.
  - rewrite IH, unravel_single. reflexivity.
  - rewrite <- nprod_concat_repeat. apply ravel_lt. apply valid_concat_repeat. exact H.
  - cbn [nprod fold_right]. lia.
Qed.
Lemma map_concat_repeat A B (f : A -> B) l c : map f (concat (repeat l c)) = concat (repeat (map f l) c).
Proof. induction c as [|c IH]; [reflexivity|]. cbn [repeat concat]. rewrite map_app, IH. reflexivity. Qed.

Lemma app_inv_length A (a b c d : list A) : length a = length c -> a ++ b = c ++ d -> a = c /\ b = d.
Proof.
  revert c. induction a as [|x a IH]; intros [|y c] HL H; try discriminate HL; [split; [reflexivity|exact H]|].
  cbn [app] in H. injection H as -> H. cbn [length] in HL. injection HL as HL. destruct (IH c HL H) as [-> ->]. split; reflexivity.
Qed.

Section GS.
  Context {R : csr}.
  Notation st := (@st R).
  Notation M := (@M R).
  Notation node := (@node R).
  Implicit Types (s : st) (e : eid).
  Notation cnt := (count_occ Nat.eq_dec).

  Definition front_of s (bk : nid -> list nat) (n : nid) : list eid :=
    match s_nodes s n with
    | Some nd => gather 0 (n_edges nd) (free_axes (length (n_edges nd)) (bk n))
    | None => []
    end.

  (** what a split did to one node *)
  Definition split_at s s' e (gs : list eid) (sh : list nat) (bk : nid -> list nat) (c : nat) (n : nid) : Prop :=
    exists nd nm, s_nodes s n = Some nd /\
      is_perm (length (n_edges nd)) (free_axes (length (n_edges nd)) (bk n) ++ bk n) /\
      gather 0 (n_edges nd) (bk n) = repeat e c /\
      ~ In e (front_of s bk n) /\
      s_nodes s' n = Some (Node (retensor (n_t nd) (bk n) (concat (repeat sh c))) (front_of s bk n ++ concat (repeat gs c)) nm).

  Section Assemble.
    Variables (s s' : st) (e : eid) (gs : list eid) (sh : list nat) (bk : nid -> list nat) (c : nat) (P : list nid).
    Hypothesis W : wf s.
    Hypothesis W' : wf s'.
    Hypothesis NP : NoDup P.
    Hypothesis Hc : 1 <= c.
    Hypothesis HPne : P <> [].
    Hypothesis Hoth : forall m, ~ In m P -> s_nodes s' m = s_nodes s m.
    Hypothesis HP : forall n, In n P -> split_at s s' e gs sh bk c n.
    Hypothesis Hgs : NoDup gs.
    Hypothesis Hlen : length gs = length sh.
    Hypothesis Hfresh : forall g, In g gs -> s_ne s <= g.
    Hypothesis He : e < s_ne s.
    Hypothesis Honly : forall p, slot s p = Some e -> In (fst p) P.
    Hypothesis Hsh : nprod sh = edim s e.

    Lemma front_lt n x : In n P -> In x (front_of s bk n) -> x < s_ne s.
    Proof.
      intros Hn Hx. destruct (HP Hn) as (nd & nm & E & _). unfold front_of in Hx. rewrite E in Hx.
      apply (node_edge_lt W E). apply In_gather in Hx. destruct Hx as (i & Hi & ->). apply nth_In. apply In_free_axes in Hi. apply Hi.
    Qed.

    Lemma split_dims n : In n P -> map (edim s') gs = sh /\ (forall x, In x (front_of s bk n) -> edim s' x = edim s x).
    Proof.
      intros Hn. destruct (HP Hn) as (nd & nm & E & Pp & G & Nf & E').
      pose proof (wf_fits W E) as Ft. pose proof (wf_fits W' E') as Ft'. unfold fits in *. cbn [fst snd n_t n_edges] in *.
      unfold retensor in Ft'. cbn [reshape shape] in Ft'. rewrite <- (wf_rank W E) in Ft'.
      assert (gather 0 (shape (n_t nd)) (free_axes (length (n_edges nd)) (bk n)) = map (edim s) (front_of s bk n)) as Ef.
      { rewrite Ft. unfold front_of. rewrite E. symmetry. apply map_gather. intros i Hi. apply In_free_axes in Hi. apply Hi. }
      rewrite Ef, map_app in Ft'. apply app_inv_length in Ft'; [|rewrite !map_length; reflexivity]. destruct Ft' as [F1 F2]. split.
      - destruct c as [|c']; [lia|]. cbn [repeat concat] in F2. rewrite map_app in F2. apply app_inv_length in F2; [|rewrite map_length; congruence].
        symmetry. apply F2.
      - intros x Hx. symmetry. clear - F1 Hx. induction (front_of s bk n) as [|y l IH]; [destruct Hx|]. cbn [map] in F1. injection F1 as K1 K2.
        destruct Hx as [<-|Hx]; [exact K1|apply IH; assumption].
    Qed.

    Lemma split_gs_dims : map (edim s') gs = sh.
    Proof. destruct P as [|n P'] eqn:EP; [congruence|]. rewrite <- EP in *. apply (@split_dims n). rewrite EP. left. reflexivity. Qed.

    Lemma split_labels Q : incl Q P -> Permutation (net_labels (net_of s' Q)) (concat (repeat gs (c * length Q)) ++ flat_map (front_of s bk) Q).
    Proof.
      induction Q as [|n Q IH]; intros HQ.
      - rewrite Nat.mul_0_r. reflexivity.
      - cbn [net_of map]. rewrite net_labels_cons. fold (net_of s' Q). rewrite IH by (intros x Hx; apply HQ; right; exact Hx).
        destruct (HP (HQ n (or_introl eq_refl))) as (nd & nm & E & Pp & G & Nf & E'). rewrite (fac_node E'). cbn [snd n_edges length flat_map].
        rewrite Nat.mul_succ_r, Nat.add_comm, repeat_app, concat_app.
        rewrite (Permutation_app_comm (front_of s bk n)), <- !app_assoc. apply Permutation_app_head.
        rewrite (app_assoc (front_of s bk n)). rewrite (Permutation_app_comm (front_of s bk n)). rewrite <- app_assoc. reflexivity.
    Qed.
    Lemma split_labels_old Q : incl Q P -> Permutation (net_labels (net_of s Q)) (repeat e (c * length Q) ++ flat_map (front_of s bk) Q).
    Proof.
      induction Q as [|n Q IH]; intros HQ.
      - rewrite Nat.mul_0_r. reflexivity.
      - cbn [net_of map]. rewrite net_labels_cons. fold (net_of s Q). rewrite IH by (intros x Hx; apply HQ; right; exact Hx).
        destruct (HP (HQ n (or_introl eq_refl))) as (nd & nm & E & Pp & G & Nf & E'). rewrite (fac_node E). cbn [snd n_edges length flat_map].
        rewrite (labels_front_back Pp) at 1. rewrite G.
        assert (front_of s bk n = gather 0 (n_edges nd) (free_axes (length (n_edges nd)) (bk n))) as <- by (unfold front_of; rewrite E; reflexivity).
        rewrite Nat.mul_succ_r, Nat.add_comm, repeat_app.
        rewrite (Permutation_app_comm (front_of s bk n)), <- !app_assoc. apply Permutation_app_head.
        rewrite (app_assoc (front_of s bk n)). rewrite (Permutation_app_comm (front_of s bk n)). rewrite <- app_assoc. reflexivity.
    Qed.

    Lemma split_fval n b : In n P -> b e < nprod sh -> (forall x, In x (front_of s bk n) -> b x < edim s x) ->
      fval (fac s n) b = fval (fac s' n) (binds Nat.eq_dec b gs (unravel sh (b e))).
    Proof.
      intros Hn Hb Hx. destruct (HP Hn) as (nd & nm & E & Pp & G & Nf & E'). rewrite (fac_node E), (fac_node E'). cbn [n_t n_edges].
      set (b' := binds Nat.eq_dec b gs (unravel sh (b e))).
      assert (front_of s bk n = gather 0 (n_edges nd) (free_axes (length (n_edges nd)) (bk n))) as Ef by (unfold front_of; rewrite E; reflexivity).
      pose proof (wf_fits W E) as Ft. unfold fits in Ft. cbn [fst snd] in Ft.
      assert (gather 0 (shape (n_t nd)) (free_axes (length (n_edges nd)) (bk n)) = map (edim s) (front_of s bk n)) as Efs.
      { rewrite Ft, Ef. symmetry. apply map_gather. intros i Hi. apply In_free_axes in Hi. apply Hi. }
      assert (gather 0 (shape (n_t nd)) (bk n) = repeat (nprod sh) c) as Ebs.
      { rewrite Ft. rewrite <- (@map_gather _ _ (edim s) 0 (n_edges nd) (bk n) 0) by (apply (proj2 (back_perm_NoDup Pp))).
        rewrite G, Hsh. clear. induction c as [|k IH]; [reflexivity|]. cbn. f_equal. exact IH. }
      assert (map b' gs = unravel sh (b e)) as Eg by (apply map_binds; [exact Hgs|rewrite unravel_length; congruence]).
      assert (map b' (front_of s bk n) = map b (front_of s bk n)) as Ebf.
      { apply map_ext_in. intros x Hxf. apply binds_other. intros K. pose proof (front_lt Hn Hxf). pose proof (Hfresh K). lia. }
      rewrite Ef in *. symmetry. apply retensor_fval.
      - symmetry. apply (wf_rank W E).
      - exact Pp.
      - rewrite Ebs. apply nprod_concat_repeat.
      - rewrite Ebf, Efs. apply valid_map_asg. exact Hx.
      - rewrite map_concat_repeat, Eg. apply valid_concat_repeat. apply unravel_valid. exact Hb.
      - symmetry. exact Ebf.
      - rewrite G, Ebs, map_concat_repeat, Eg. rewrite unravel_repeat by (apply unravel_valid; exact Hb).
        rewrite ravel_unravel by exact Hb. clear. induction c as [|k IH]; [reflexivity|]. cbn. f_equal. exact IH.
    Qed.

    Lemma split_assemble : fuse_data s' s P gs e (flat_map (front_of s bk) P) (c * length P).
    Proof.
      split.
      - exact NP.
      - intros m Hm. symmetry. apply Hoth. exact Hm.
      - apply split_labels. apply incl_refl.
      - apply split_labels_old. apply incl_refl.
      - exact Hgs.
      - intros x Hx K. apply in_flat_map in K. destruct K as (n & Hn & K). pose proof (front_lt Hn K). pose proof (Hfresh Hx). lia.
      - intros K. apply in_flat_map in K. destruct K as (n & Hn & K). destruct (HP Hn) as (nd & nm & _ & _ & _ & Nf & _). contradiction.
      - intros x [m k] Hx Hs. destruct (in_dec Nat.eq_dec m P) as [|Hm]; [assumption|]. exfalso. unfold slot in Hs. cbn [fst snd] in Hs.
        rewrite (Hoth Hm) in Hs. pose proof (@slot_lt _ _ s (m, k) x W Hs). pose proof (Hfresh Hx). lia.
      - intros [m k] Hm K. cbn [fst] in Hm. unfold slot in K. cbn [fst snd] in K. rewrite (Hoth Hm) in K. apply Hm. apply (@Honly (m, k) K).
      - intros m Hm. destruct (split_dims Hm) as [D1 D2]. rewrite D1, Hsh.
        destruct (HP Hm) as (nd & nm & E & Pp & G & Nf & E'). rewrite (fac_node E). pose proof (wf_fits W E) as Ft. unfold fits in *. cbn [fst snd] in *.
        rewrite Ft. apply map_ext_in. intros x Hx. destruct (Nat.eq_dec x e) as [->|Hne]; [rewrite upd_same; reflexivity|].
        rewrite upd_other by exact Hne. symmetry. apply D2. unfold front_of. rewrite E.
        apply (Permutation_in _ (labels_front_back Pp)) in Hx. apply in_app_or in Hx. destruct Hx as [Hx|Hx]; [exact Hx|].
        rewrite G in Hx. apply repeat_spec in Hx. contradiction.
      - rewrite split_gs_dims. intros b Hb Hx n Hn. apply (split_fval Hn Hb). intros x Hxf. destruct (split_dims Hn) as [_ D2]. rewrite <- (D2 x Hxf). apply Hx. apply in_flat_map. eauto.
    Qed.
  End Assemble.

  (** ** connect_all *)
  Fixpoint renl (es fs : list eid) (g : eid) (x : eid) : eid :=
    match es, fs with
    | e :: es', f :: fs' => renl es' fs' (S g) (ren2 e f g x)
    | _, _ => x
    end.
  Lemma renl_other es : forall fs g x, ~ In x es -> ~ In x fs -> renl es fs g x = x.
  Proof.
    induction es as [|e es IH]; intros [|f fs] g x H1 H2; try reflexivity. cbn [renl].
    assert (ren2 e f g x = x) as ->.
    { unfold ren2. destruct (Nat.eqb_spec x e) as [->|]; [exfalso; apply H1; left; reflexivity|].
      destruct (Nat.eqb_spec x f) as [->|]; [exfalso; apply H2; left; reflexivity|]. reflexivity. }
    apply IH; intros K; [apply H1|apply H2]; right; exact K.
  Qed.
  Lemma renl_map es : forall fs g, length fs = length es -> NoDup (es ++ fs) -> (forall x, In x (es ++ fs) -> x < g) ->
    map (renl es fs g) es = seq g (length es) /\ map (renl es fs g) fs = seq g (length es).
  Proof.
    induction es as [|e es IH]; intros [|f fs] g HL HN HB; try discriminate HL; [split; reflexivity|].
    cbn [length] in HL. injection HL as HL. cbn [app] in HN. apply NoDup_cons_iff in HN. destruct HN as [He HN].
    pose proof (Permutation_NoDup (Permutation_sym (Permutation_middle es fs f)) HN) as HN'.
    apply NoDup_cons_iff in HN'. destruct HN' as [Hf HN'].
    assert (e <> f) as Hef by (intros ->; apply He; apply in_or_app; right; left; reflexivity).
    assert (forall x, In x (es ++ fs) -> ren2 e f g x = x) as Hid.
    { intros x Hx. unfold ren2. destruct (Nat.eqb_spec x e) as [->|].
      - exfalso. apply He. apply in_app_or in Hx. apply in_or_app. destruct Hx; [left|right; right]; assumption.
      - destruct (Nat.eqb_spec x f) as [->|]; [contradiction|reflexivity]. }
    assert (forall x, In x (es ++ fs) -> x < g) as HB'.
    { intros x Hx. apply HB. cbn [app]. right. apply in_app_or in Hx. apply in_or_app. destruct Hx; [left|right; right]; assumption. }
    destruct (IH fs (S g) HL HN' ltac:(intros x Hx; specialize (HB' x Hx); lia)) as [I1 I2].
    cbn [renl map length seq].
    assert (renl es fs (S g) g = g) as Hg.
    { apply renl_other; intros K; specialize (HB' g ltac:(apply in_or_app; auto)); lia. }
    assert (ren2 e f g e = g) as -> by (unfold ren2; rewrite Nat.eqb_refl; reflexivity).
    assert (ren2 e f g f = g) as -> by (unfold ren2; rewrite Nat.eqb_refl, orb_true_r; reflexivity).
    rewrite Hg. split; f_equal.
    - rewrite <- I1. apply map_ext_in. intros x Hx. rewrite Hid by (apply in_or_app; auto). reflexivity.
    - rewrite <- I2. apply map_ext_in. intros x Hx. rewrite Hid by (apply in_or_app; auto). reflexivity.
  Qed.

  Lemma connect_all_inv es : forall fs s s' gs, wf s -> NoDup (es ++ fs) -> (forall x, In x (es ++ fs) -> exists p, slot s p = Some x) ->
    connect_all es fs s = (s', Some gs) ->
    wf s' /\ length fs = length es /\ gs = seq (s_ne s) (length es) /\ s_nn s' = s_nn s /\ s_ne s' = s_ne s + length es /\
    (forall m, s_nodes s' m = option_map (fun nd => Node (n_t nd) (map (renl es fs (s_ne s)) (n_edges nd)) (n_names nd)) (s_nodes s m)) /\
    (forall p x, slot s p = Some x -> ~ In x (es ++ fs) -> slot s' p = Some x).
  Proof.
    induction es as [|e es IH]; intros [|f fs] s s' gs W HN HL H; cbn [connect_all] in H; try discriminate H.
    - injection H as <- <-. split; [exact W|]. split; [reflexivity|]. split; [reflexivity|]. split; [reflexivity|]. split; [cbn; lia|]. split.
      + intros m. destruct (s_nodes s m) as [[t es nm]|]; [|reflexivity]. cbn. do 2 f_equal. symmetry. apply map_id.
      + auto.
    - apply bind_inv in H. destruct H as (g & s1 & H1 & H). apply bind_inv in H. destruct H as (gs' & s2 & H2 & H). injection H as <- <-.
      cbn [app] in HN. apply NoDup_cons_iff in HN. destruct HN as [He HN].
      pose proof (Permutation_NoDup (Permutation_sym (Permutation_middle es fs f)) HN) as HN'.
      apply NoDup_cons_iff in HN'. destruct HN' as [Hf HN'].
      destruct (connect_inv W (HL e ltac:(left; reflexivity)) (HL f ltac:(cbn [app]; right; apply in_or_app; right; left; reflexivity)) H1) as (p1 & p2 & C).
      pose proof (connect_wf W C) as W1.
      assert (forall x, In x (es ++ fs) -> x <> e /\ x <> f) as Hne.
      { intros x Hx. split; intros ->; [|contradiction]. apply He. apply in_app_or in Hx. apply in_or_app. destruct Hx; [left|right; right]; assumption. }
      assert (forall p x, slot s p = Some x -> x <> e -> x <> f -> slot s1 p = Some x) as Keep.
      { intros p x Hs N1 N2. rewrite (cp_slot C). destruct (slot_eqb_spec p p1) as [->|]; [rewrite (cp_p1 C) in Hs; congruence|].
        destruct (slot_eqb_spec p p2) as [->|]; [rewrite (cp_p2 C) in Hs; congruence|]. exact Hs. }
      assert (forall x, In x (es ++ fs) -> exists p, slot s1 p = Some x) as HL1.
      { intros x Hx. destruct (Hne x Hx) as [N1 N2]. destruct (HL x) as (p & Hp).
        { cbn [app]. right. apply in_app_or in Hx. apply in_or_app. destruct Hx; [left|right; right]; assumption. }
        exists p. apply Keep; assumption. }
      destruct (IH fs s1 s2 gs' W1 HN' HL1 H2) as (W2 & L & -> & Nn & Ne & Nod & Sl).
      pose proof (cp_ne C) as Ne1. pose proof (cp_e C) as Eg. cbn [length seq renl]. split; [exact W2|]. split; [lia|]. split; [rewrite Eg, Ne1; reflexivity|].
      split; [rewrite Nn; apply (cp_nn C)|]. split; [lia|]. split.
      + intros m. rewrite Nod, (connect_nodes m W C). destruct (s_nodes s m) as [[t es0 nm]|]; [|reflexivity]. cbn. do 2 f_equal.
        rewrite map_map, Ne1, Eg. reflexivity.
      + intros p x Hs Hx. apply Sl.
        * apply Keep; [exact Hs| |]; intros ->; apply Hx; [left; reflexivity|right; apply in_or_app; right; left; reflexivity].
        * intros K. apply Hx. cbn [app]. right. apply in_app_or in K. apply in_or_app. destruct K; [left|right; right]; assumption.
  Qed.

  (** the state after splitting an edge *)
  Record split_post s s' (e : eid) (gs : list eid) (sh : list nat) (P : list nid) (mult : nat) : Prop := {
    sp_wf : wf s';
    sp_nn : s_nn s' = s_nn s;
    sp_fresh : forall g, In g gs -> s_ne s <= g;
    sp_NoDup : NoDup gs;
    sp_dims : map (edim s') gs = sh;
    sp_data : exists Mo, fuse_data s' s P gs e Mo mult;
    sp_nodes : forall n, In n P -> exists nd nd', s_nodes s n = Some nd /\ s_nodes s' n = Some nd' /\
        n_edges nd' = kept_of [e] (n_edges nd) ++ (match P with [_] => concat (repeat gs mult) | _ => gs end)
  }.

  Lemma front_is_kept s bk n nd e : s_nodes s n = Some nd ->
    (forall j, j < length (n_edges nd) -> (In j (bk n) <-> nth j (n_edges nd) 0 = e)) ->
    front_of s bk n = kept_of [e] (n_edges nd).
  Proof.
    intros Hn Hj. unfold front_of. rewrite Hn. rewrite kept_gather. f_equal. unfold free_axes. apply filter_ext_seq. intros i Hi. unfold keepP. f_equal.
    apply eq_true_iff_eq. rewrite !mem_In. rewrite (Hj i Hi). cbn [In]. split; [intros ->; auto|intros [<-|[]]; reflexivity].
  Qed.
  Lemma kept_not_in e l : ~ In e (kept_of [e] l).
  Proof. intros K. apply filter_In in K. destruct K as [_ K]. apply negb_true_iff, mem_nIn in K. apply K. left. reflexivity. Qed.

  Lemma split_dangling n a e sh nms s s1 s2 gs (x : unit) : wf s -> slot s (n, a) = Some e -> s_edges s e = Some (Edge n a None false) -> nprod sh = edim s e ->
    split_node_axis n e sh nms s = (s1, Some gs) -> disable_edge e s1 = (s2, Some x) ->
    split_post s s2 e gs sh [n] 1.
  Proof.
    intros W Hs He Hd H1 H2.
    destruct (split_node_retail W (@wf_live_at _ s n W) H1) as (nd & Hn & Hin & -> & T).
    assert (forall p, slot s p = Some e -> p = (n, a)) as Uq by (intros p Hp; apply (dangling_slot W Hp He eq_refl)).
    assert (nindex e (n_edges nd) = a) as Ea.
    { assert (slot s (n, nindex e (n_edges nd)) = Some e) as K by (apply (slot_intro Hn); apply nindex_nth_error; exact Hin). apply Uq in K. congruence. }
    rewrite Ea in T. set (bk := fun _ : nid => [a]).
    assert (front_of s bk n = kept_of [e] (n_edges nd)) as Ef.
    { apply (front_is_kept Hn). intros j Hj. unfold bk. cbn [In]. split.
      - intros [<-|[]]. apply nth_error_nth_some. apply slot_node in Hs. destruct Hs as (d & Ed & Ek). rewrite Hn in Ed. injection Ed as <-. exact Ek.
      - intros K. left. assert (slot s (n, j) = Some e) as Q by (apply (slot_intro Hn); rewrite <- K; apply nth_error_nth'; exact Hj). apply Uq in Q. congruence. }
    assert (gather 0 (n_edges nd) [a] = [e]) as G.
    { cbn. f_equal. rewrite <- Ea. apply nth_error_nth_some. apply nindex_nth_error. exact Hin. }
    pose proof (rt_wf T W) as W1. cbn beta in W1. rewrite G in W1.
    assert (e < s_ne s) as Le by (apply (slot_lt W Hs)).
    assert (forall p c, slot s1 p = Some c -> ~ In c [e]) as Gone.
    { intros [m k] c Hc [<-|[]].
      destruct (retail_slot Hn T Hc Le) as [(Em & j & Hjf & Hs0)|[Em Hs0]].
      - apply Uq in Hs0. injection Hs0 as ->. apply In_free_axes in Hjf. apply (proj2 Hjf). left. reflexivity.
      - apply Uq in Hs0. injection Hs0 as -> _. apply Em. reflexivity. }
    assert (mfor [e] (@disable_edge R) s1 = (s2, Some tt)) as H2'.
    { cbn [mfor]. unfold bind. rewrite H2. reflexivity. }
    destruct (disable_wf W1 H2' Gone) as (W2 & N2 & Nn2 & Ne2 & E2).
    assert (wf s2) as W2'.
    { apply (wfx_strengthen (X := fun e0 : eid => False \/ In e0 [e])); [|exact W2].
      intros p c Hc. assert (slot s1 p = Some c) as Hs' by (unfold slot in *; rewrite N2 in Hc; exact Hc).
      intros [[]|K]; apply (Gone p c Hs' K). }
    destruct (rt_node T) as (nm & Nn1).
    assert (forall m, In m [n] -> split_at s s2 e (seq (s_ne s) (length sh)) sh bk 1 m) as HP.
    { intros m [<-|[]]. exists nd, nm. split; [exact Hn|]. split; [exact (rt_perm T)|]. split; [exact G|]. split; [rewrite Ef; apply kept_not_in|].
      rewrite N2, Nn1. cbn [repeat concat]. rewrite !app_nil_r. unfold front_of, bk. rewrite Hn. reflexivity. }
    assert (forall g, In g (seq (s_ne s) (length sh)) -> s_ne s <= g) as Fr by (intros g Hg; apply in_seq in Hg; lia).
    assert (NoDup [n]) as NP by (repeat constructor; intros []).
    assert (forall m, ~ In m [n] -> s_nodes s2 m = s_nodes s m) as Oth by (intros m Hm; rewrite N2; apply (rt_others T); intros ->; apply Hm; left; reflexivity).
    assert (forall p, slot s p = Some e -> In (fst p) [n]) as Only by (intros p Hp; rewrite (Uq p Hp); left; reflexivity).
    assert ([n] <> []) as Hne by discriminate.
    split.
    - exact W2'.
    - rewrite Nn2. apply (rt_nn T).
    - exact Fr.
    - apply seq_NoDup.
    - apply (@split_gs_dims s s2 e _ sh bk 1 [n]); auto using seq_length.
    - exists (flat_map (front_of s bk) [n]). 
      apply (@split_assemble s s2 e _ sh bk 1 [n]); auto using seq_NoDup, seq_length.
    - intros m [<-|[]]. destruct (HP n (or_introl eq_refl)) as (nd1 & nm1 & K1 & _ & _ & _ & K2). rewrite Hn in K1. injection K1 as <-. exists nd. eexists. split; [exact Hn|]. split; [exact K2|].
      cbn [n_edges]. rewrite Ef. reflexivity.
  Qed.

  Lemma split_two u v e sh nms s s1 s2 s3 s4 es fs gs (x : unit) ed : wf s -> u <> v -> (exists p, slot s p = Some e) -> s_edges s e = Some ed -> joins ed u v = true ->
    nprod sh = edim s e ->
    split_node_axis u e sh nms s = (s1, Some es) -> split_node_axis v e sh nms s1 = (s2, Some fs) -> disable_edge e s2 = (s3, Some x) ->
    connect_all es fs s3 = (s4, Some gs) ->
    split_post s s4 e gs sh [u; v] 2.
  Proof.
    intros W Hne Hl He Hj Hd H1 H2 H3 H4.
    destruct (two_ends W Hne Hl He Hj) as (i & k & Si & Sk & Only & U1 & U2).
    destruct (split_node_retail W (@wf_live_at _ s u W) H1) as (du & Hu & Inu & -> & Tu).
    pose proof (rt_wf Tu W) as W1.
    assert (live_at s1 v) as Lv by (apply (rt_live Tu); [auto|apply (wf_live_at W)]).
    destruct (split_node_retail W1 Lv H2) as (dv & Hv1 & Inv & -> & Tv).
    assert (s_nodes s v = Some dv) as Hv by (rewrite (rt_others Tu) in Hv1; auto).
    assert (nindex e (n_edges du) = i) as Ei by (apply U1; apply (slot_intro Hu); apply nindex_nth_error; exact Inu).
    assert (nindex e (n_edges dv) = k) as Ek by (apply U2; apply (slot_intro Hv); apply nindex_nth_error; exact Inv).
    rewrite Ei in *. rewrite Ek in *.
    set (bk := fun m : nid => if Nat.eqb m u then [i] else [k]).
    assert (bk u = [i]) as Bu by (unfold bk; rewrite Nat.eqb_refl; reflexivity).
    assert (bk v = [k]) as Bv by (unfold bk; destruct (Nat.eqb_spec v u); [congruence|reflexivity]).
    assert (gather 0 (n_edges du) [i] = [e]) as Gu.
    { cbn. f_equal. rewrite <- Ei. apply nth_error_nth_some. apply nindex_nth_error. exact Inu. }
    assert (gather 0 (n_edges dv) [k] = [e]) as Gv.
    { cbn. f_equal. rewrite <- Ek. apply nth_error_nth_some. apply nindex_nth_error. exact Inv. }
    assert (front_of s bk u = kept_of [e] (n_edges du)) as Fu.
    { apply (front_is_kept Hu). intros j Hjl. rewrite Bu. cbn [In]. split.
      - intros [<-|[]]. injection Gu as Gu. exact Gu.
      - intros K. left. symmetry. apply U1. apply (slot_intro Hu). rewrite <- K. apply nth_error_nth'. exact Hjl. }
    assert (front_of s bk v = kept_of [e] (n_edges dv)) as Fv.
    { apply (front_is_kept Hv). intros j Hjl. rewrite Bv. cbn [In]. split.
      - intros [<-|[]]. injection Gv as Gv. exact Gv.
      - intros K. left. symmetry. apply U2. apply (slot_intro Hv). rewrite <- K. apply nth_error_nth'. exact Hjl. }
    pose proof (rt_wf Tv W1) as W2. cbn beta in W2. rewrite Gu, Gv in W2.
    assert (e < s_ne s) as Le by (apply (slot_lt W Si)).
    assert (forall p c, slot s2 p = Some c -> ~ In c [e]) as Gone.
    { intros [m j] c Hc [<-|[]].
      destruct (retail_slot Hv1 Tv Hc) as [(Em & j' & Hjf & Hs1)|[Em Hs1]]; [rewrite (rt_ne Tu); lia| |].
      - apply In_free_axes in Hjf. apply (proj2 Hjf). left. symmetry. apply U2. unfold slot in *. cbn [fst] in *. rewrite (rt_others Tu) in Hs1 by auto. exact Hs1.
      - cbn in Em. destruct (retail_slot Hu Tu Hs1 Le) as [(Em' & j' & Hjf & Hs0)|[Em' Hs0]].
        + apply In_free_axes in Hjf. apply (proj2 Hjf). left. symmetry. apply U1. exact Hs0.
        + cbn in Em'. destruct (joins_ends Hj (live_in_ends W Hs0 He)); contradiction. }
    assert (mfor [e] (@disable_edge R) s2 = (s3, Some tt)) as H3'.
    { cbn [mfor]. unfold bind. rewrite H3. reflexivity. }
    destruct (disable_wf W2 H3' Gone) as (W3 & N3 & Nn3 & Ne3 & E3).
    assert (wf s3) as W3'.
    { apply (wfx_strengthen (X := fun e0 : eid => (False \/ In e0 [e]) \/ In e0 [e])); [|exact W3].
      intros p c Hs. assert (slot s2 p = Some c) as Hs' by (unfold slot in *; rewrite N3 in Hs; exact Hs).
      intros [[[]|K]|K]; apply (Gone p c Hs' K). }
    set (es := seq (s_ne s) (length sh)) in *. set (fs := seq (s_ne s1) (length sh)) in *.
    pose proof (rt_ne Tu) as Ne1. pose proof (rt_ne Tv) as Ne2.
    assert (NoDup (es ++ fs)) as Nef.
    { unfold es, fs. rewrite Ne1, <- seq_app. apply seq_NoDup. }
    assert (forall y, In y (es ++ fs) -> s_ne s <= y < s_ne s3) as Bef.
    { unfold es, fs. rewrite Ne1, <- seq_app. intros y Hy. apply in_seq in Hy. lia. }
    assert (forall y, In y (es ++ fs) -> exists p, slot s3 p = Some y) as Lef.
    { intros y Hy. apply in_app_or in Hy. destruct Hy as [Hy|Hy]; apply in_seq in Hy.
      - pose proof (retail_new_slot (i := y - s_ne s) Tu ltac:(lia)) as S1. replace (s_ne s + (y - s_ne s)) with y in S1 by lia.
        eexists (u, _). unfold slot in *. cbn [fst snd] in *. rewrite N3, (rt_others Tv) by auto. exact S1.
      - pose proof (retail_new_slot (i := y - s_ne s1) Tv ltac:(lia)) as S1. replace (s_ne s1 + (y - s_ne s1)) with y in S1 by lia.
        eexists (v, _). unfold slot in *. cbn [fst snd] in *. rewrite N3. exact S1. }
    destruct (connect_all_inv W3' Nef Lef H4) as (W4 & _ & Eg & Nn4 & Ne4 & Nod & _).
    assert (length es = length sh) as Lees by (unfold es; apply seq_length). rewrite Lees in Eg.
    destruct (@renl_map es fs (s_ne s3)) as [Re Rf].
    { unfold es, fs. rewrite !seq_length. reflexivity. }
    { exact Nef. }
    { intros y Hy. apply Bef in Hy. lia. }
    rewrite Lees, <- Eg in Re, Rf.
    destruct (rt_node Tu) as (nmu & Nu1). destruct (rt_node Tv) as (nmv & Nv2). fold es in Nu1. fold fs in Nv2.
    assert (forall l, (forall c, In c l -> c < s_ne s) -> map (renl es fs (s_ne s3)) l = l) as Rid.
    { intros l Hll. etransitivity; [|apply map_id]. apply map_ext_in. intros c Hc. specialize (Hll c Hc).
      apply renl_other; intros K; specialize (Bef c ltac:(apply in_or_app; auto)); lia. }
    assert (forall m d (b : list nat), s_nodes s m = Some d -> forall c, In c (gather 0 (n_edges d) (free_axes (length (n_edges d)) b)) -> c < s_ne s) as LF.
    { intros m d b Em c Hc. apply (node_edge_lt W Em). apply In_gather in Hc. destruct Hc as (q & Hq & ->). apply nth_In. apply In_free_axes in Hq. apply Hq. }
    assert (forall m, In m [u; v] -> split_at s s4 e gs sh bk 1 m) as HP.
    { intros m [<-|[<-|[]]].
      - exists du, nmu. split; [exact Hu|]. rewrite Bu. split; [exact (rt_perm Tu)|]. split; [exact Gu|]. split; [rewrite Fu; apply kept_not_in|].
        rewrite Nod, N3, (rt_others Tv) by auto. rewrite Nu1. cbn [option_map n_t n_edges n_names repeat concat]. rewrite !app_nil_r.
        unfold front_of. rewrite Hu, Bu. rewrite map_app, Re, Rid by (eapply LF; eassumption). reflexivity.
      - exists dv, nmv. split; [exact Hv|]. rewrite Bv. split; [exact (rt_perm Tv)|]. split; [exact Gv|]. split; [rewrite Fv; apply kept_not_in|].
        rewrite Nod, N3, Nv2. cbn [option_map n_t n_edges n_names repeat concat]. rewrite !app_nil_r.
        unfold front_of. rewrite Hv, Bv. rewrite map_app, Rf, Rid by (eapply LF; eassumption). reflexivity. }
    assert (forall m, ~ In m [u; v] -> s_nodes s4 m = s_nodes s m) as Oth.
    { intros m Hm. assert (m <> u /\ m <> v) as [Mu Mv] by (split; intros ->; apply Hm; cbn; auto).
      rewrite Nod, N3, (rt_others Tv), (rt_others Tu) by auto. destruct (s_nodes s m) as [[t ees nm]|] eqn:Em; [|reflexivity]. cbn. do 2 f_equal.
      apply Rid. intros c Hc. apply (node_edge_lt W Em Hc). }
    assert (forall g, In g gs -> s_ne s <= g) as Fr by (intros g Hg; rewrite Eg in Hg; apply in_seq in Hg; lia).
    assert (NoDup [u; v]) as NP by (repeat constructor; [intros [->|[]]; congruence|intros []]).
    assert (forall p, slot s p = Some e -> In (fst p) [u; v]) as Only'.
    { intros p Hp. destruct (joins_ends Hj (live_in_ends W Hp He)) as [-> | ->]; cbn; auto. }
    assert (NoDup gs) as Ng by (rewrite Eg; apply seq_NoDup).
    assert (length gs = length sh) as Lg by (rewrite Eg; apply seq_length).
    split.
    - exact W4.
    - rewrite Nn4, Nn3, (rt_nn Tv). apply (rt_nn Tu).
    - exact Fr.
    - exact Ng.
    - apply (@split_gs_dims s s4 e _ sh bk 1 [u; v]); auto; discriminate.
    - exists (flat_map (front_of s bk) [u; v]).
      apply (@split_assemble s s4 e _ sh bk 1 [u; v]); auto; discriminate.
    - intros m Hm. destruct (HP m Hm) as (nd1 & nm1 & K1 & _ & _ & _ & K2). exists nd1. eexists. split; [exact K1|]. split; [exact K2|].
      cbn [n_edges repeat concat]. rewrite app_nil_r. f_equal. destruct Hm as [<-|[<-|[]]]; [rewrite Fu|rewrite Fv]; congruence.
  Qed.

  Lemma split_trace n a1 a2 e sh s s' gs : wf s -> (exists p, slot s p = Some e) -> s_edges s e = Some (Edge n a1 (Some (n, a2)) false) -> nprod sh = edim s e ->
    split_trace_edge e sh s = (s', Some gs) ->
    split_post s s' e gs sh [n] 2.
  Proof.
    intros W (p0 & Hp0) He Hd H. unfold split_trace_edge in H.
    apply bind_inv in H. destruct H as (ed & s1 & H1 & H). apply get_edge_inv in H1. destruct H1 as (-> & E & _).
    rewrite He in E. injection E as <-. cbn [e_2 e_n1 e_a1] in H.
    pose proof (ends_live W Hp0 He) as L. pose proof (fun q Hq => live_in_ends (p := q) W Hq He) as L'.
    destruct (wf_slot W Hp0) as (ed' & K & _ & _ & Hnd & _). rewrite He in K. injection K as <-.
    unfold ends in *. cbn [e_n1 e_a1 e_2] in *.
    assert (a1 <> a2) as Hne.
    { intros ->. apply NoDup_cons_iff in Hnd. destruct Hnd as [K _]. apply K. left. reflexivity. }
    apply bind_inv in H. destruct H as (nd & s1 & H1 & H). apply get_node_inv in H1. destruct H1 as [-> Hn].
    set (a := Nat.min a1 a2) in *. set (b := Nat.max a1 a2) in *. 
    assert (a < b) as Hab by lia.
    assert ((a = a1 /\ b = a2) \/ (a = a2 /\ b = a1)) as Hcase by lia.
    assert (slot s (n, a) = Some e /\ slot s (n, b) = Some e) as [Sa Sb].
    { destruct Hcase as [[-> ->]|[-> ->]]; split; apply L; cbn; auto. }
    assert (forall q, slot s q = Some e -> q = (n, a) \/ q = (n, b)) as Only.
    { intros q Hq. apply L' in Hq. destruct Hcase as [[-> ->]|[-> ->]]; cbn in Hq; destruct Hq as [<-|[<-|[]]]; auto. }
    clear Hcase Hnd L L'. clearbody a b.
    set (fr := free_axes (length (n_edges nd)) [a; b]) in *.
    apply bind_inv in H. destruct H as (u1 & s1 & H1 & H). apply reorder_axes_inv in H1. destruct H1 as (nd0 & K & Hp & Hr).
    rewrite Hn in K. injection K as <-.
    pose proof Hr as (R1 & R2 & R3 & R4).
    assert (s_nodes s1 n = Some (Node (transpose (n_t nd) (fr ++ [a; b])) (gather 0 (n_edges nd) (fr ++ [a; b])) (gather 0 (n_names nd) (fr ++ [a; b])))) as Hn1
      by (rewrite R3, Nat.eqb_refl; reflexivity).
    apply bind_inv in H. destruct H as (nd' & s2 & H1 & H). apply get_node_inv in H1. destruct H1 as [-> H1].
    rewrite Hn1 in H1. injection H1 as <-. cbn [n_t n_edges n_names] in H.
    apply bind_inv in H. destruct H as (es & s2 & H1 & H). apply alloc_edges_inv in H1. destruct H1 as (-> & A1 & A2 & A3 & A4).
    apply bind_inv in H. destruct H as (fs & s3 & H1 & H). apply alloc_edges_inv in H1. destruct H1 as (-> & B1 & B2 & B3 & B4).
    apply bind_inv in H. destruct H as (u2 & s4 & H1 & H). apply set_node_inv in H1.
    apply bind_inv in H. destruct H as (gs' & s5 & H5 & H). 
    apply bind_inv in H. destruct H as (u3 & s6 & H6 & H). injection H as <- <-.
    assert (retail s s4 n nd [a; b] (sh ++ sh)) as T.
    { eapply (@retail_intro R (fun _ => False) s s1); [exact W|apply (wf_live_at W)|exact Hn|exact Hp|exact Hr|]. fold fr. subst s4. split; [|split; [|split]].
      - cbn. congruence.
      - cbn. rewrite app_length. lia.
      - intros m. cbn [s_nodes with_node n_edges]. rewrite B1, A1. rewrite app_length, seq_app, A3. 
        unfold upd. destruct (Nat.eqb_spec m n), (Nat.eq_dec m n); try congruence; try reflexivity.
      - intros c. cbn [s_edges with_node]. rewrite B4, A3, A4, app_length.
        destruct (Nat.leb_spec (s_ne s1 + length sh) c), (Nat.ltb_spec c (s_ne s1 + length sh + length sh)), (Nat.leb_spec (s_ne s1) c), (Nat.ltb_spec c (s_ne s1 + length sh)), (Nat.ltb_spec c (s_ne s1 + (length sh + length sh)));
          cbn [andb]; try reflexivity; try lia; do 2 f_equal; lia. }
    rewrite A3, R2 in H5. clear H1 R1 R2 R3 R4 Hn1 Hr A1 A2 A3 A4 B1 B2 B3 B4 s1 s2 s3.
    assert (nth a (n_edges nd) 0 = e) as Na.
    { apply slot_node in Sa. destruct Sa as (d & Ed & Ek). rewrite Hn in Ed. injection Ed as <-. apply (nth_error_nth_some 0 Ek). }
    assert (nth b (n_edges nd) 0 = e) as Nb.
    { apply slot_node in Sb. destruct Sb as (d & Ed & Ek). rewrite Hn in Ed. injection Ed as <-. apply (nth_error_nth_some 0 Ek). }
    assert (gather 0 (n_edges nd) [a; b] = [e; e]) as G by (cbn; congruence).
    set (bk := fun _ : nid => [a; b]).
    assert (front_of s bk n = kept_of [e] (n_edges nd)) as Ef.
    { apply (front_is_kept Hn). intros j Hj. unfold bk. cbn [In]. split.
      - intros [<-|[<-|[]]]; assumption.
      - intros K. assert (slot s (n, j) = Some e) as Q by (apply (slot_intro Hn); rewrite <- K; apply nth_error_nth'; exact Hj).
        apply Only in Q. destruct Q as [Q|Q]; injection Q as ->; auto. }
    pose proof (rt_wf T W) as W2. cbn beta in W2. rewrite G in W2.
    assert (e < s_ne s) as Le by (apply (slot_lt W Sa)).
    assert (forall p c, slot s4 p = Some c -> ~ In c [e]) as Gone.
    { intros [m j] c Hc [<-|[]].
      destruct (retail_slot Hn T Hc Le) as [(Em & j' & Hjf & Hs0)|[Em Hs0]].
      - apply In_free_axes in Hjf. apply (proj2 Hjf). apply Only in Hs0. destruct Hs0 as [Q|Q]; injection Q as ->; cbn; auto.
      - apply Only in Hs0. cbn in Em. destruct Hs0 as [Q|Q]; injection Q as -> ?; contradiction. }
    assert (wf s4) as W4.
    { apply (wfx_strengthen (X := fun e0 : eid => False \/ In e0 [e; e])); [|exact W2].
      intros p c Hc [[]|K]. apply (Gone p c Hc). destruct K as [<-|[<-|[]]]; left; reflexivity. }
    set (es := seq (s_ne s) (length sh)) in *. set (fs := seq (s_ne s + length sh) (length sh)) in *.
    pose proof (rt_ne T) as Ne4. rewrite app_length in Ne4.
    assert (es ++ fs = seq (s_ne s) (length sh + length sh)) as Eef by (unfold es, fs; rewrite <- seq_app; reflexivity).
    assert (NoDup (es ++ fs)) as Nef by (rewrite Eef; apply seq_NoDup).
    assert (forall y, In y (es ++ fs) -> s_ne s <= y < s_ne s4) as Bef.
    { rewrite Eef. intros y Hy. apply in_seq in Hy. lia. }
    assert (forall y, In y (es ++ fs) -> exists p, slot s4 p = Some y) as Lef.
    { rewrite Eef. intros y Hy. apply in_seq in Hy.
      pose proof (retail_new_slot (i := y - s_ne s) T ltac:(rewrite app_length; lia)) as S1. replace (s_ne s + (y - s_ne s)) with y in S1 by lia. eexists. exact S1. }
    destruct (connect_all_inv W4 Nef Lef H5) as (W5 & _ & Eg & Nn5 & Ne5 & Nod & _).
    assert (length es = length sh) as Lees by (unfold es; apply seq_length). rewrite Lees in Eg.
    destruct (@renl_map es fs (s_ne s4)) as [Re Rf].
    { unfold es, fs. rewrite !seq_length. reflexivity. }
    { exact Nef. }
    { intros y Hy. apply Bef in Hy. lia. }
    rewrite Lees, <- Eg in Re, Rf.
    destruct (rt_node T) as (nm & Nn4). rewrite app_length, seq_app in Nn4. fold es fs in Nn4.
    assert (forall l, (forall c, In c l -> c < s_ne s) -> map (renl es fs (s_ne s4)) l = l) as Rid.
    { intros l Hll. etransitivity; [|apply map_id]. apply map_ext_in. intros c Hc. specialize (Hll c Hc).
      apply renl_other; intros K; specialize (Bef c ltac:(apply in_or_app; auto)); lia. }
    assert (forall c, In c (gather 0 (n_edges nd) fr) -> c < s_ne s) as LF.
    { intros c Hc. apply (node_edge_lt W Hn). apply In_gather in Hc. destruct Hc as (q & Hq & ->). apply nth_In. apply In_free_axes in Hq. apply Hq. }
    assert (s_nodes s5 n = Some (Node (retensor (n_t nd) [a; b] (sh ++ sh)) (front_of s bk n ++ gs' ++ gs') nm)) as Nn6.
    { rewrite Nod, Nn4. cbn [option_map n_t n_edges n_names]. unfold front_of, bk. rewrite Hn. rewrite !map_app, Re, Rf, Rid by exact LF. reflexivity. }
    assert (forall m, m <> n -> s_nodes s5 m = s_nodes s m) as Oth5.
    { intros m Hm. rewrite Nod, (rt_others T) by auto. destruct (s_nodes s m) as [[t ees nmm]|] eqn:Em; [|reflexivity]. cbn. do 2 f_equal.
      apply Rid. intros c Hc. apply (node_edge_lt W Em Hc). }
    assert (forall p c, slot s5 p = Some c -> ~ In c [e]) as Gone5.
    { intros [m j] c Hc [<-|[]]. apply slot_node in Hc. destruct Hc as (d & Ed & Ek). destruct (Nat.eq_dec m n) as [->|Hm].
      - rewrite Nn6 in Ed. injection Ed as <-. cbn [n_edges] in Ek. apply nth_error_In in Ek. apply in_app_or in Ek. destruct Ek as [Ek|Ek].
        + rewrite Ef in Ek. apply kept_not_in in Ek. exact Ek.
        + assert (In e gs') as Ek' by (apply in_app_or in Ek; destruct Ek; assumption). rewrite Eg in Ek'. apply in_seq in Ek'. lia.
      - rewrite (Oth5 m Hm) in Ed. pose proof (slot_intro (s := s) Ed Ek) as Q. apply Only in Q. destruct Q as [Q|Q]; injection Q as -> ?; contradiction. }
    assert (mfor [e] (@disable_edge R) s5 = (s6, Some tt)) as H6'.
    { cbn [mfor]. unfold bind. rewrite H6. reflexivity. }
    destruct (disable_wf W5 H6' Gone5) as (W6 & N6 & Nnn6 & Ne6 & _).
    assert (forall m, In m [n] -> split_at s s6 e gs' sh bk 2 m) as HP.
    { intros m [<-|[]]. exists nd, nm. split; [exact Hn|]. split; [exact (rt_perm T)|]. split; [exact G|]. split; [rewrite Ef; apply kept_not_in|].
      rewrite N6, Nn6. cbn [repeat concat]. rewrite !app_nil_r. reflexivity. }
    assert (forall g, In g gs' -> s_ne s <= g) as Fr by (intros g Hg; rewrite Eg in Hg; apply in_seq in Hg; lia).
    assert (NoDup [n]) as NP by (repeat constructor; intros []).
    assert (forall m, ~ In m [n] -> s_nodes s6 m = s_nodes s m) as Oth.
    { intros m Hm. rewrite N6. apply Oth5. intros ->. apply Hm. left. reflexivity. }
    assert (forall p, slot s p = Some e -> In (fst p) [n]) as Only'.
    { intros p Hq. destruct (Only p Hq) as [-> | ->]; left; reflexivity. }
    assert (NoDup gs') as Ng by (rewrite Eg; apply seq_NoDup).
    assert (length gs' = length sh) as Lg by (rewrite Eg; apply seq_length).
    split.
    - exact W6.
    - rewrite Nnn6, Nn5. apply (rt_nn T).
    - exact Fr.
    - exact Ng.
    - apply (@split_gs_dims s s6 e _ sh bk 2 [n]); auto; discriminate.
    - exists (flat_map (front_of s bk) [n]).
      apply (@split_assemble s s6 e _ sh bk 2 [n]); auto; discriminate.
    - intros m [<-|[]]. exists nd. eexists. split; [exact Hn|]. split; [rewrite N6; exact Nn6|].
      cbn [n_edges repeat concat]. rewrite Ef, app_nil_r. reflexivity.
  Qed.

  Variable iter : list nat -> list nat.
  Hypothesis iter_perm : forall l, Permutation (iter l) l.

  Theorem split_edge_post e sh nms s s' gs : wf s -> (exists p, slot s p = Some e) ->
    split_edge iter e sh nms s = (s', Some gs) ->
    nprod sh = edim s e /\
    ((gs = [e] /\ s' = s /\ length sh = 1) \/
     exists P mult, split_post s s' e gs sh P mult /\
       ((mult = 1 /\ exists n a, P = [n] /\ s_edges s e = Some (Edge n a None false)) \/
        (mult = 2 /\ exists ed, s_edges s e = Some ed /\
           ((exists n, P = [n] /\ joins ed n n = true) \/ (exists u v, P = [u; v] /\ u <> v /\ joins ed u v = true))))).
  Proof.
    intros W Hl H. unfold split_edge in H.
    destruct Hl as (p & Hp). destruct (wf_slot W Hp) as (ed & He & Hdis & _).
    apply bind_inv in H. destruct H as (d & s1 & H1 & H).
    destruct (edge_dim_inv He H1) as [-> Hd]. apply bind_inv in H. destruct H as (u0 & s1 & H2 & H). apply guard_inv in H2. destruct H2 as [H2 ->].
    apply Nat.eqb_eq in H2.
    assert (edim s e = d) as Ed.
    { unfold edim. rewrite He, Hd. reflexivity. }
    rewrite <- Ed in H2. split; [exact H2|].
    assert ((exists x, sh = [x]) \/ (bind (get_edge e) (fun ed => match e_2 ed with
        | None => bind (split_node_axis (e_n1 ed) e sh nms) (fun es => bind (disable_edge e) (fun _ => ret es))
        | Some (q, _) => if Nat.eqb (e_n1 ed) q then split_trace_edge e sh
            else match iter [e_n1 ed; q] with
              | [u; v] => bind (split_node_axis u e sh nms) (fun es => bind (split_node_axis v e sh nms) (fun fs => bind (disable_edge e) (fun _ => connect_all es fs)))
              | _ => fail end end)) s = (s', Some gs)) as Hcase.
    { destruct sh as [|x [|y sh]]; [right; exact H|left; exists x; reflexivity|right; exact H]. }
    destruct Hcase as [(x & ->)|Hc].
    - injection H as <- <-. left. auto.
    - clear H. right. rename Hc into H. apply bind_inv in H. destruct H as (ed' & s1 & H3 & H). apply get_edge_inv in H3. destruct H3 as (-> & K & _).
      rewrite He in K. injection K as <-. destruct ed as [n a1 o ds]. cbn [e_2 e_n1 e_dis] in *. subst ds. destruct o as [[q a2]|].
      + destruct (Nat.eqb_spec n q) as [<-|Hne].
        * exists [n], 2. split; [eapply split_trace; eauto|]. right. split; [reflexivity|]. eexists. split; [exact He|]. left. exists n. split; [reflexivity|].
          unfold joins. cbn. rewrite Nat.eqb_refl. reflexivity.
        * pose proof (iter_perm [n; q]) as Pi. destruct (perm_two Pi) as [Ei|Ei]; rewrite Ei in H;
            apply bind_inv in H; destruct H as (es & s1 & H4 & H); apply bind_inv in H; destruct H as (fs & s2 & H5 & H);
            apply bind_inv in H; destruct H as (x & s3 & H6 & H).
          -- assert (joins (Edge n a1 (Some (q, a2)) false) n q = true) as J by (unfold joins; cbn; rewrite !Nat.eqb_refl; reflexivity).
             exists [n; q], 2. split; [eapply split_two; eauto|]. right. split; [reflexivity|]. eexists. split; [exact He|]. right. exists n, q. auto.
          -- assert (joins (Edge n a1 (Some (q, a2)) false) q n = true) as J by (unfold joins; cbn; rewrite !Nat.eqb_refl; rewrite orb_true_r; reflexivity).
             exists [q; n], 2. split; [eapply split_two; eauto|]. right. split; [reflexivity|]. eexists. split; [exact He|]. right. exists q, n. auto.
      + apply bind_inv in H. destruct H as (es & s1 & H4 & H). apply bind_inv in H. destruct H as (x & s2 & H5 & H). injection H as <- <-.
        assert (p = (n, a1)) as -> by (apply (dangling_slot W Hp He eq_refl)).
        exists [n], 1. split; [eapply split_dangling; eauto|]. left. split; [reflexivity|]. exists n, a1. auto.
  Qed.
End GS.
