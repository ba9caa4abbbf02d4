(** * GraphFlatten: flatten_edges *)
From Verif Require Import Prelude Algebra Tensor TensorFacts Einsum EinsumFacts NetworkFacts Graph GraphBase GraphContract GraphOps GraphValue GraphOuter GraphConnect GraphBetween GraphRetail GraphFuse.
Set Implicit Arguments.
Unset Strict Implicit.

Section GF.
  Context {R : csr}.
  Notation st := (@st R).
  Notation M := (@M R).
  Notation node := (@node R).
  Implicit Types (s : st) (e : eid).

  Lemma map_ren2_id e1 e2 e l : (forall x, In x l -> x <> e1 /\ x <> e2) -> map (ren2 e1 e2 e) l = l.
  Proof.
    intros H. rewrite <- (map_id l) at 2. apply map_ext_in. intros x Hx. destruct (H x Hx) as [H1 H2]. unfold ren2.
    destruct (Nat.eqb_spec x e1), (Nat.eqb_spec x e2); try contradiction. reflexivity.
  Qed.

  Lemma node_edge_lt (X : eid -> Prop) s n nd e : wfx X s -> s_nodes s n = Some nd -> In e (n_edges nd) -> e < s_ne s.
  Proof. intros W Hn He. apply In_nth_error in He. destruct He as [k Hk]. apply (slot_lt W (slot_intro Hn Hk)). Qed.

  Lemma labels_front_back (es back : list nat) : is_perm (length es) (free_axes (length es) back ++ back) ->
    Permutation es (gather 0 es (free_axes (length es) back) ++ gather 0 es back).
  Proof. intros H. rewrite <- gather_app. symmetry. apply gather_perm. exact H. Qed.

  Lemma gather_In_bound A (d : A) l ix x : (forall i, In i ix -> i < length l) -> In x (gather d l ix) -> In x l.
  Proof. intros H K. apply In_gather in K. destruct K as (i & Hi & ->). apply nth_In. auto. Qed.

  (** an edge at exactly one position of a node is not among the node's remaining edges *)
  Lemma not_in_front s n nd es e : s_nodes s n = Some nd -> In e es -> (forall x, In x es -> In x (n_edges nd)) ->
    (forall j k, slot s (n, j) = Some e -> slot s (n, k) = Some e -> j = k) ->
    ~ In e (gather 0 (n_edges nd) (free_axes (length (n_edges nd)) (map (fun e => nindex e (n_edges nd)) es))).
  Proof.
    intros Hn He Hin U K. apply In_gather in K. destruct K as (j & Hj & Ej). apply In_free_axes in Hj. destruct Hj as [Hj1 Hj2].
    apply Hj2. apply in_map_iff. exists e. split; [|exact He]. apply U.
    - apply (slot_intro Hn). apply nindex_nth_error. apply Hin. exact He.
    - apply (slot_intro Hn). rewrite Ej. apply nth_error_nth'. exact Hj1.
  Qed.

  (** replaced axes with the value equation, for one node *)
  Lemma flatten_fval s n nd es f a : wf s -> s_nodes s n = Some nd ->
    (forall x, In x es -> In x (n_edges nd)) -> NoDup es ->
    let back := map (fun e => nindex e (n_edges nd)) es in let fr := free_axes (length (n_edges nd)) back in
    is_perm (length (n_edges nd)) (fr ++ back) ->
    (forall x, In x es -> ~ In x (gather 0 (n_edges nd) fr)) ->
    a f < nprod (map (edim s) es) -> (forall x, In x (gather 0 (n_edges nd) fr) -> a x < edim s x) ->
    fval (retensor (n_t nd) back [nprod (gather 0 (shape (n_t nd)) back)], gather 0 (n_edges nd) fr ++ [f]) a
    = fval (n_t nd, n_edges nd) (binds Nat.eq_dec a es (unravel (map (edim s) es) (a f))).
  Proof.
    intros W Hn Hin Nes back fr Hp Hnf Hf Hx. pose proof (wf_fits W Hn) as Ft. unfold fits in Ft. cbn [fst snd] in Ft.
    assert (forall i, In i back -> i < length (n_edges nd)) as Hb by (apply back_perm_NoDup; exact Hp).
    assert (gather 0 (shape (n_t nd)) back = map (edim s) es) as Eb.
    { rewrite Ft. rewrite <- (gather_nindex (l := n_edges nd) (es := es) Hin) at 1. fold back. symmetry. apply map_gather. exact Hb. }
    assert (gather 0 (shape (n_t nd)) fr = map (edim s) (gather 0 (n_edges nd) fr)) as Ef.
    { rewrite Ft. symmetry. apply map_gather. intros i Hi. apply In_free_axes in Hi. apply Hi. }
    apply retensor_fval; fold fr.
    - symmetry. apply (wf_rank W Hn).
    - exact Hp.
    - cbn [nprod fold_right]. lia.
    - rewrite Ef. apply valid_map_asg. exact Hx.
    - cbn [map]. rewrite Eb. constructor; [exact Hf|constructor].
    - apply map_ext_in. intros x Hxf. apply binds_other. intros K. apply (Hnf x K Hxf).
    - unfold back. rewrite gather_nindex by exact Hin. rewrite map_binds; [|exact Nes|rewrite unravel_length, map_length; reflexivity].
      fold back. rewrite Eb. cbn [map]. rewrite ravel_single. reflexivity.
  Qed.

  Lemma flatten_fits s n nd es f : wf s -> s_nodes s n = Some nd ->
    (forall x, In x es -> In x (n_edges nd)) ->
    let back := map (fun e => nindex e (n_edges nd)) es in let fr := free_axes (length (n_edges nd)) back in
    ~ In f (n_edges nd) -> (forall i, In i back -> i < length (n_edges nd)) ->
    fits (upd Nat.eq_dec (edim s) f (nprod (map (edim s) es)))
      (retensor (n_t nd) back [nprod (gather 0 (shape (n_t nd)) back)], gather 0 (n_edges nd) fr ++ [f]).
  Proof.
    intros W Hn Hin back fr Hf Hb. pose proof (wf_fits W Hn) as Ft. unfold fits in *. cbn [fst snd] in *.
    unfold retensor. cbn [reshape shape]. rewrite <- (wf_rank W Hn). fold fr. rewrite map_app. cbn [map]. rewrite upd_same.
    assert (forall i, In i fr -> i < length (n_edges nd)) as Hfr by (intros i Hi; apply In_free_axes in Hi; apply Hi).
    assert (gather 0 (shape (n_t nd)) back = map (edim s) es) as Eb.
    { rewrite Ft. rewrite <- (gather_nindex (l := n_edges nd) (es := es) Hin) at 1. fold back. symmetry. apply map_gather. exact Hb. }
    rewrite Eb. f_equal. rewrite Ft. symmetry. rewrite <- (@map_gather _ _ (edim s) 0 (n_edges nd) fr 0 Hfr).
    apply map_ext_in. intros x Hx. apply upd_other. intros ->. apply Hf. apply (gather_In_bound Hfr Hx).
  Qed.

  (** ** flattening edges between two nodes *)
  Record flat_post s s' (es : list eid) (f : eid) (P : list nid) (mult : nat) : Prop := {
    fl_wf : wf s';
    fl_nn : s_nn s' = s_nn s;
    fl_f : s_ne s <= f;
    fl_NoDup : NoDup es;
    fl_data : exists Mo, fuse_data s s' P es f Mo mult;
    fl_ends : exists ed, s_edges s' f = Some ed /\ Permutation (map fst (ends ed)) (if Nat.eqb mult 1 then P else match P with [n] => [n; n] | _ => P end);
    fl_nodes : forall n, In n P -> exists nd nd', s_nodes s n = Some nd /\ s_nodes s' n = Some nd' /\
        n_edges nd' = kept_of es (n_edges nd) ++ (match P with [_] => repeat f mult | _ => [f] end)
  }.

  (** the kept edges *)
  Lemma front_kept s n nd es : wf s -> s_nodes s n = Some nd -> (forall x, In x es -> In x (n_edges nd)) ->
    (forall x j k, In x es -> slot s (n, j) = Some x -> slot s (n, k) = Some x -> j = k) ->
    gather 0 (n_edges nd) (free_axes (length (n_edges nd)) (map (fun e => nindex e (n_edges nd)) es)) = kept_of es (n_edges nd).
  Proof.
    intros W Hn Hin U. rewrite kept_gather. f_equal. unfold free_axes. apply filter_ext_seq. intros i Hi. unfold keepP. f_equal.
    destruct (mem (nth i (n_edges nd) 0) es) eqn:E.
    - apply mem_In in E. apply mem_In. apply in_map_iff. exists (nth i (n_edges nd) 0). split; [|exact E].
      apply (U (nth i (n_edges nd) 0)); [exact E| |].
      + apply (slot_intro Hn). apply nindex_nth_error. apply nth_In. exact Hi.
      + apply (slot_intro Hn). apply nth_error_nth'. exact Hi.
    - apply mem_nIn in E. apply mem_nIn. intros K. apply in_map_iff in K. destruct K as (x & Ex & Hx). apply E. rewrite <- Ex.
      rewrite nth_index_of by (apply Hin; exact Hx). exact Hx.
  Qed.

  Lemma flatten_two u v es s s1 s2 s3 s4 f1 f2 e (x : unit) :
    wf s -> u <> v -> (forall c, In c es -> exists ed, s_edges s c = Some ed /\ joins ed u v = true) ->
    flatten_node u es s = (s1, Some f1) -> flatten_node v es s1 = (s2, Some f2) ->
    mfor es (@disable_edge R) s2 = (s3, Some x) -> connect f1 f2 s3 = (s4, Some e) ->
    flat_post s s4 es e [u; v] 2.
  Proof.
    intros W Hne Hj H1 H2 H3 H4.
    destruct (flatten_node_retail W (@wf_live_at _ s u W) H1) as (du & Hu & Inu & -> & Tu & _).
    set (bu := map (fun e => nindex e (n_edges du)) es) in *. set (fu := free_axes (length (n_edges du)) bu) in *.
    pose proof (rt_wf Tu W) as W1.
    assert (live_at s1 v) as Lv by (apply (rt_live Tu); [auto|apply (wf_live_at W)]).
    destruct (flatten_node_retail W1 Lv H2) as (dv & Hv1 & Inv & -> & Tv & _).
    set (bv := map (fun e => nindex e (n_edges dv)) es) in *. set (fv := free_axes (length (n_edges dv)) bv) in *.
    assert (s_nodes s v = Some dv) as Hv by (rewrite (rt_others Tu) in Hv1; auto).
    pose proof (rt_wf Tv W1) as W2. cbn beta in W2.
    assert (NoDup es) as Nes.
    { destruct (back_perm_NoDup (rt_perm Tu)) as [K _]. apply NoDup_map_inv in K. exact K. }
    assert (gather 0 (n_edges du) bu = es) as Gu by (apply gather_nindex; exact Inu).
    assert (gather 0 (n_edges dv) bv = es) as Gv by (apply gather_nindex; exact Inv).
    rewrite Gu, Gv in W2.
    assert (forall c n, In c es -> n = u \/ n = v -> forall j k, slot s (n, j) = Some c -> slot s (n, k) = Some c -> j = k) as Uq.
    { intros c n Hc Hnn j k Sj Sk. destruct (Hj c Hc) as (ed & E & J).
      destruct (two_ends W Hne (ex_intro _ (n, j) Sj) E J) as (i & i' & _ & _ & _ & U1 & U2).
      destruct Hnn as [-> | ->]; [rewrite (U1 j Sj), (U1 k Sk)|rewrite (U2 j Sj), (U2 k Sk)]; reflexivity. }
    assert (forall c, In c es -> ~ In c (gather 0 (n_edges du) fu)) as NFu
      by (intros c Hc; apply (@not_in_front s u du es c Hu Hc Inu); apply Uq; auto).
    assert (forall c, In c es -> ~ In c (gather 0 (n_edges dv) fv)) as NFv
      by (intros c Hc; apply (@not_in_front s v dv es c Hv Hc Inv); apply Uq; auto).
    assert (forall c m k, In c es -> slot s (m, k) = Some c -> m = u \/ m = v) as Only.
    { intros c m k Hc Hs. destruct (Hj c Hc) as (ed & E & J). apply (joins_ends J (live_in_ends W Hs E)). }
    assert (forall c, In c es -> c < s_ne s) as Les by (intros c Hc; apply (node_edge_lt W Hu (Inu c Hc))).
    assert (forall p c, slot s2 p = Some c -> ~ In c es) as Gone.
    { intros [m k] c Hs Hc. pose proof (Les c Hc) as Lc.
      destruct (retail_slot Hv1 Tv Hs) as [(Em & j & Hjf & Hs1)|[Em Hs1]]; [rewrite (rt_ne Tu); lia| |].
      - cbn in Em. subst m. apply (NFv c Hc). apply In_gather. exists j. split; [exact Hjf|]. apply slot_node in Hs1.
        destruct Hs1 as (d & Ed & Ek). rewrite Hv1 in Ed. injection Ed as <-. symmetry. apply (nth_error_nth _ _ 0 Ek).
      - cbn in Em. destruct (retail_slot Hu Tu Hs1 Lc) as [(Em' & j & Hjf & Hs0)|[Em' Hs0]].
        + cbn in Em'. subst m. apply (NFu c Hc). apply In_gather. exists j. split; [exact Hjf|]. apply slot_node in Hs0.
          destruct Hs0 as (d & Ed & Ek). rewrite Hu in Ed. injection Ed as <-. symmetry. apply (nth_error_nth _ _ 0 Ek).
        + cbn in Em'. destruct (Only c m k Hc Hs0); contradiction. }
    destruct (disable_wf W2 H3 Gone) as (W3 & N3 & Nn3 & Ne3 & E3).
    assert (wf s3) as W3'.
    { apply (wfx_strengthen (X := fun e0 : eid => (False \/ In e0 es) \/ In e0 es)); [|exact W3].
      intros p c Hs. assert (slot s2 p = Some c) as Hs' by (unfold slot in *; rewrite N3 in Hs; exact Hs).
      intros [[[]|K]|K]; apply (Gone p c Hs' K). }
    pose proof (retail_new_slot (i := 0) Tu (Nat.lt_0_1)) as S1. pose proof (retail_new_slot (i := 0) Tv (Nat.lt_0_1)) as S2.
    rewrite !Nat.add_0_r in S1, S2. fold fu in S1. fold fv in S2. fold bu in S1. fold bv in S2.
    assert (slot s3 (u, length fu) = Some (s_ne s)) as S1'.
    { unfold slot in *. cbn [fst snd] in *. rewrite N3, (rt_others Tv) by auto. exact S1. }
    assert (slot s3 (v, length fv) = Some (s_ne s1)) as S2'.
    { unfold slot in *. cbn [fst snd] in *. rewrite N3. exact S2. }
    destruct (connect_inv W3' (ex_intro _ _ S1') (ex_intro _ _ S2') H4) as (p1 & p2 & C).
    pose proof (connect_wf W3' C) as W4.
    assert (s_ne s1 = S (s_ne s)) as Ne1 by (rewrite (rt_ne Tu); cbn; lia).
    assert (s_ne s2 = S (S (s_ne s))) as Ne2 by (rewrite (rt_ne Tv), Ne1; cbn; lia).
    assert (e = S (S (s_ne s))) as Ee by (rewrite (cp_e C), Ne3; exact Ne2).
    rewrite Ne1 in *.
    destruct (rt_node Tu) as (nmu & Nu1). destruct (rt_node Tv) as (nmv & Nv2). cbn [length seq] in Nu1, Nv2. rewrite Ne1 in Nv2.
    fold fu bu in Nu1. fold fv bv in Nv2.
    assert (forall i, In i fu -> i < length (n_edges du)) as Bfu by (intros i Hi; apply In_free_axes in Hi; apply Hi).
    assert (forall i, In i fv -> i < length (n_edges dv)) as Bfv by (intros i Hi; apply In_free_axes in Hi; apply Hi).
    assert (forall c, In c (gather 0 (n_edges du) fu) -> c < s_ne s) as LFu
      by (intros c Hc; apply (node_edge_lt W Hu); apply (gather_In_bound Bfu Hc)).
    assert (forall c, In c (gather 0 (n_edges dv) fv) -> c < s_ne s) as LFv
      by (intros c Hc; apply (node_edge_lt W Hv); apply (gather_In_bound Bfv Hc)).
    assert (s_nodes s4 u = Some (Node (retensor (n_t du) bu [nprod (gather 0 (shape (n_t du)) bu)]) (gather 0 (n_edges du) fu ++ [e]) nmu)) as Nu4.
    { rewrite (connect_nodes u W3' C), N3, (rt_others Tv) by auto. rewrite Nu1. cbn [option_map n_t n_edges n_names]. do 2 f_equal.
      rewrite map_app. f_equal.
      - apply map_ren2_id. intros c Hc. specialize (LFu c Hc). lia.
      - cbn. unfold ren2. rewrite Nat.eqb_refl. reflexivity. }
    assert (s_nodes s4 v = Some (Node (retensor (n_t dv) bv [nprod (gather 0 (shape (n_t dv)) bv)]) (gather 0 (n_edges dv) fv ++ [e]) nmv)) as Nv4.
    { rewrite (connect_nodes v W3' C), N3, Nv2. cbn [option_map n_t n_edges n_names]. do 2 f_equal.
      rewrite map_app. f_equal.
      - apply map_ren2_id. intros c Hc. specialize (LFv c Hc). lia.
      - cbn. unfold ren2. rewrite Nat.eqb_refl, orb_true_r. reflexivity. }
    assert (forall m, m <> u -> m <> v -> s_nodes s4 m = s_nodes s m) as Oth.
    { intros m Mu Mv. rewrite (connect_nodes m W3' C), N3, (rt_others Tv), (rt_others Tu) by auto.
      destruct (s_nodes s m) as [d|] eqn:Em; [|reflexivity]. cbn. f_equal. destruct d as [t es0 nm]. cbn. f_equal.
      apply map_ren2_id. intros c Hc. pose proof (node_edge_lt W Em Hc). lia. }
    split.
    - exact W4.
    - rewrite (cp_nn C), Nn3, (rt_nn Tv), (rt_nn Tu). reflexivity.
    - lia.
    - exact Nes.
    - exists (gather 0 (n_edges du) fu ++ gather 0 (n_edges dv) fv). split.
      + constructor; [intros [K|[]]; congruence|]. repeat constructor. intros [].
      + intros m Hm. apply Oth; intros ->; apply Hm; cbn; auto.
      + cbn [net_of map repeat concat]. rewrite !net_labels_cons, (fac_node Hu), (fac_node Hv). cbn [snd net_labels flat_map].
        rewrite !app_nil_r. rewrite (labels_front_back (rt_perm Tu)) at 1. rewrite (labels_front_back (rt_perm Tv)) at 1. fold fu fv. rewrite Gu, Gv.
        rewrite <- !app_assoc. rewrite (Permutation_app_comm (gather 0 (n_edges dv) fv) es).
        rewrite (Permutation_app_comm (gather 0 (n_edges du) fu)). rewrite <- !app_assoc. apply Permutation_app_head. apply Permutation_app_head. apply Permutation_app_comm.
      + cbn [net_of map repeat]. rewrite !net_labels_cons, (fac_node Nu4), (fac_node Nv4). cbn [snd net_labels flat_map n_edges].
        rewrite !app_nil_r. rewrite (Permutation_app_comm (gather 0 (n_edges du) fu) [e]), (Permutation_app_comm (gather 0 (n_edges dv) fv) [e]).
        cbn [app]. constructor. symmetry. apply Permutation_middle.
      + exact Nes.
      + intros c Hc K. apply in_app_or in K. destruct K as [K|K]; [apply (NFu c Hc K)|apply (NFv c Hc K)].
      + intros K. apply in_app_or in K. destruct K as [K|K]; [specialize (LFu e K)|specialize (LFv e K)]; lia.
      + intros c [m k] Hc Hs. cbn. destruct (Only c m k Hc Hs); auto.
      + intros p _ K. pose proof (slot_lt W K) as [_ Hlt]. lia.
      + intros m [<-|[<-|[]]].
        * rewrite (fac_node Nu4). cbn [n_t n_edges]. eapply flatten_fits; eauto.
          -- intros K. pose proof (node_edge_lt W Hu K). lia.
          -- apply (proj2 (back_perm_NoDup (rt_perm Tu))).
        * rewrite (fac_node Nv4). cbn [n_t n_edges]. eapply flatten_fits; eauto.
          -- intros K. pose proof (node_edge_lt W Hv K). lia.
          -- apply (proj2 (back_perm_NoDup (rt_perm Tv))).
      + intros b Hb Hbm m [<-|[<-|[]]]; [rewrite (fac_node Nu4), (fac_node Hu)|rewrite (fac_node Nv4), (fac_node Hv)]; cbn [n_t n_edges].
        * apply (flatten_fval W Hu Inu Nes (rt_perm Tu) NFu Hb). intros c Hc. apply Hbm. apply in_or_app. auto.
        * apply (flatten_fval W Hv Inv Nes (rt_perm Tv) NFv Hb). intros c Hc. apply Hbm. apply in_or_app. auto.
    - eexists. split; [apply (cp_edge C)|]. cbn [Nat.eqb]. unfold ends. cbn [map fst e_n1 e_a1 e_2].
      pose proof (dangling_slot W3' S1' (cp_ed1 C) eq_refl) as Q1. pose proof (dangling_slot W3' S2' (cp_ed2 C) eq_refl) as Q2.
      cbn in Q1, Q2. injection Q1 as <- _. injection Q2 as <- _. reflexivity.
    - intros n [<-|[<-|[]]].
      + exists du. eexists. split; [exact Hu|]. split; [exact Nu4|]. cbn [n_edges]. f_equal.
        apply (front_kept W Hu Inu). intros c j k Hc. apply Uq; auto.
      + exists dv. eexists. split; [exact Hv|]. split; [exact Nv4|]. cbn [n_edges]. f_equal.
        apply (front_kept W Hv Inv). intros c j k Hc. apply Uq; auto.
  Qed.

  Lemma check_same_nodes_inv p q es s s' (x : unit) : check_same_nodes p q es s = (s', Some x) ->
    s' = s /\ forall c, In c es -> exists ed, s_edges s c = Some ed /\ e_dis ed = false /\ edge_set_is ed p q = true.
  Proof.
    revert s s'. induction es as [|c r IH]; intros s s' H; cbn [check_same_nodes] in H.
    - injection H as <- _. split; [reflexivity|]. intros c [].
    - apply bind_inv in H. destruct H as (ed & s1 & H1 & H). apply get_edge_inv in H1. destruct H1 as (-> & E & D).
      apply bind_inv in H. destruct H as (u & s1 & H1 & H). apply guard_inv in H1. destruct H1 as [G ->].
      apply IH in H. destruct H as [-> H]. split; [reflexivity|]. intros c' [<-|Hc]; [eauto|apply H; exact Hc].
  Qed.

  (** ** flattening dangling edges *)
  Lemma flatten_dangling n es s s1 s2 f (x : unit) :
    wf s -> (forall c, In c es -> exists ed, s_edges s c = Some ed /\ e_dis ed = false /\ edge_set_is ed n None = true) ->
    flatten_node n es s = (s1, Some f) -> mfor es (@disable_edge R) s1 = (s2, Some x) ->
    flat_post s s2 es f [n] 1.
  Proof.
    intros W Hd H1 H2.
    destruct (flatten_node_retail W (@wf_live_at _ s n W) H1) as (nd & Hn & Hin & -> & T & _).
    set (bk := map (fun e => nindex e (n_edges nd)) es) in *. set (fr := free_axes (length (n_edges nd)) bk) in *.
    pose proof (rt_wf T W) as W1. cbn beta in W1.
    assert (gather 0 (n_edges nd) bk = es) as G by (apply gather_nindex; exact Hin). rewrite G in W1.
    assert (NoDup es) as Nes.
    { destruct (back_perm_NoDup (rt_perm T)) as [K _]. apply NoDup_map_inv in K. exact K. }
    assert (forall c p, In c es -> slot s p = Some c -> exists a, p = (n, a) /\ s_edges s c = Some (Edge n a None false)) as Uq0.
    { intros c p Hc Hs. destruct (Hd c Hc) as (ed & E & Dis & Es). unfold edge_set_is in Es.
      destruct ed as [n1 a1 [q|] ds]; cbn [e_2 e_n1 e_dis] in *; [destruct q; discriminate|]. apply Nat.eqb_eq in Es. subst n1 ds.
      exists a1. split; [|exact E]. apply (dangling_slot W Hs E eq_refl). }
    assert (forall c j k, In c es -> slot s (n, j) = Some c -> slot s (n, k) = Some c -> j = k) as Uq.
    { intros c j k Hc Sj Sk. destruct (Uq0 c _ Hc Sj) as (a & Ea & E). destruct (Uq0 c _ Hc Sk) as (a' & Ea' & E'). congruence. }
    assert (forall c, In c es -> ~ In c (gather 0 (n_edges nd) fr)) as NF
      by (intros c Hc; apply (@not_in_front s n nd es c Hn Hc Hin); intros j k; apply Uq; exact Hc).
    assert (forall c, In c es -> c < s_ne s) as Les by (intros c Hc; apply (node_edge_lt W Hn (Hin c Hc))).
    assert (forall p c, slot s1 p = Some c -> ~ In c es) as Gone.
    { intros [m k] c Hs Hc. pose proof (Les c Hc) as Lc.
      destruct (retail_slot Hn T Hs Lc) as [(Em & j & Hjf & Hs0)|[Em Hs0]].
      - cbn in Em. subst m. apply (NF c Hc). apply In_gather. exists j. split; [exact Hjf|]. apply slot_node in Hs0.
        destruct Hs0 as (d & Ed & Ek). rewrite Hn in Ed. injection Ed as <-. symmetry. apply (nth_error_nth _ _ 0 Ek).
      - cbn in Em. destruct (Uq0 c _ Hc Hs0) as (a & Ea & _). injection Ea as Ea _. contradiction. }
    destruct (disable_wf W1 H2 Gone) as (W2 & N2 & Nn2 & Ne2 & E2).
    assert (wf s2) as W2'.
    { apply (wfx_strengthen (X := fun e0 : eid => False \/ In e0 es)); [|exact W2].
      intros p c Hs. assert (slot s1 p = Some c) as Hs' by (unfold slot in *; rewrite N2 in Hs; exact Hs).
      intros [[]|K]; apply (Gone p c Hs' K). }
    destruct (rt_node T) as (nm & Nn1). cbn [length seq] in Nn1. fold fr bk in Nn1.
    assert (s_nodes s2 n = Some (Node (retensor (n_t nd) bk [nprod (gather 0 (shape (n_t nd)) bk)]) (gather 0 (n_edges nd) fr ++ [s_ne s]) nm)) as Nn
      by (rewrite N2; exact Nn1).
    assert (forall i, In i fr -> i < length (n_edges nd)) as Bf by (intros i Hi; apply In_free_axes in Hi; apply Hi).
    assert (forall c, In c (gather 0 (n_edges nd) fr) -> c < s_ne s) as LF
      by (intros c Hc; apply (node_edge_lt W Hn); apply (gather_In_bound Bf Hc)).
    split.
    - exact W2'.
    - rewrite Nn2, (rt_nn T). reflexivity.
    - lia.
    - exact Nes.
    - exists (gather 0 (n_edges nd) fr). split.
      + repeat constructor. intros [].
      + intros m Hm. rewrite N2. apply (rt_others T). intros ->. apply Hm. left. reflexivity.
      + cbn [net_of map repeat concat]. rewrite !net_labels_cons, (fac_node Hn). cbn [snd net_labels flat_map].
        rewrite !app_nil_r. rewrite (labels_front_back (rt_perm T)) at 1. fold fr. rewrite G. apply Permutation_app_comm.
      + cbn [net_of map repeat]. rewrite !net_labels_cons, (fac_node Nn). cbn [snd net_labels flat_map n_edges].
        rewrite !app_nil_r. apply Permutation_app_comm.
      + exact Nes.
      + exact NF.
      + intros K. specialize (LF _ K). lia.
      + intros c p Hc Hs. destruct (Uq0 c p Hc Hs) as (a & -> & _). left. reflexivity.
      + intros p _ K. pose proof (slot_lt W K) as [_ Hlt]. lia.
      + intros m [<-|[]]. rewrite (fac_node Nn). cbn [n_t n_edges]. eapply flatten_fits; eauto.
        * intros K. pose proof (node_edge_lt W Hn K). lia.
        * apply (proj2 (back_perm_NoDup (rt_perm T))).
      + intros b Hb Hbm m [<-|[]]. rewrite (fac_node Nn), (fac_node Hn).
        cbn [n_t n_edges]. apply (flatten_fval W Hn Hin Nes (rt_perm T) NF Hb Hbm).
    - eexists. split.
      + rewrite E2; [|intros K; specialize (Les _ K); lia]. pose proof (rt_fresh T (Nat.lt_0_1)) as K. rewrite Nat.add_0_r in K. exact K.
      + reflexivity.
    - intros m [<-|[]]. exists nd. eexists. split; [exact Hn|]. split; [exact Nn|]. cbn [n_edges repeat]. f_equal.
      apply (front_kept W Hn Hin). intros c j k Hc. apply Uq. exact Hc.
  Qed.

  (** ** flattening trace edges *)
  Fixpoint trace_pairs (l : list eid) : M (list (nat * nat)) :=
    match l with
    | [] => ret []
    | e :: r =>
        bind (get_edge e) (fun ed =>
        match e_2 ed with
        | None => fail
        | Some (_, a2) => bind (trace_pairs r) (fun ps => ret ((Nat.min (e_a1 ed) a2, Nat.max (e_a1 ed) a2) :: ps))
        end)
    end.

  Definition tpair s (c : eid) : nat * nat :=
    match s_edges s c with
    | Some ed => match e_2 ed with Some q => (Nat.min (e_a1 ed) (snd q), Nat.max (e_a1 ed) (snd q)) | None => (0, 0) end
    | None => (0, 0)
    end.
  Lemma trace_pairs_inv l s s' ps : trace_pairs l s = (s', Some ps) -> s' = s /\ ps = map (tpair s) l.
  Proof.
    revert s s' ps. induction l as [|e r IH]; intros s s' ps H; cbn [trace_pairs] in H.
    - injection H as <- <-. split; reflexivity.
    - apply bind_inv in H. destruct H as (ed & s1 & H1 & H). apply get_edge_inv in H1. destruct H1 as (-> & E & D).
      destruct (e_2 ed) as [[m a2]|] eqn:E2; [|discriminate].
      apply bind_inv in H. destruct H as (ps' & s1 & H1 & H). injection H as <- <-. apply IH in H1. destruct H1 as [-> ->].
      split; [reflexivity|]. cbn [map]. f_equal. unfold tpair. rewrite E, E2. reflexivity.
  Qed.

  Definition flatten_trace_body (es : list eid) (n : nid) : M eid :=
    bind (get_node n) (fun nd =>
    bind (trace_pairs es) (fun pairs =>
    let back := map fst pairs ++ map snd pairs in
    let front := free_axes (length (n_edges nd)) back in
    let newdim := nprod (map (fun p => nth (fst p) (shape (n_t nd)) 0) pairs) in
    bind (reorder_axes n (front ++ back)) (fun _ =>
    bind (get_node n) (fun nd' =>
    let k := length front in
    let t := reshape (n_t nd') (firstn k (shape (n_t nd')) ++ [newdim; newdim]) in
    bind (alloc_edge (Edge n k None false)) (fun e1 =>
    bind (alloc_edge (Edge n (S k) None false)) (fun e2 =>
    bind (set_node n (Node t (firstn k (n_edges nd') ++ [e1; e2]) (n_names nd'))) (fun _ =>
    bind (connect e1 e2) (fun e =>
    bind (mfor es (@disable_edge R)) (fun _ => ret e))))))))).

  Lemma flatten_trace_eq e0 er es : es = e0 :: er ->
    flatten_trace_edges es = bind (get_edge e0) (fun ed0 => flatten_trace_body es (e_n1 ed0)).
  Proof. intros ->. reflexivity. Qed.

  Lemma flatten_trace n es s s' f : es <> [] ->
    wf s -> (forall c, In c es -> (exists p, slot s p = Some c) /\ exists ed, s_edges s c = Some ed /\ e_dis ed = false /\ edge_set_is ed n (Some n) = true) ->
    flatten_trace_edges es s = (s', Some f) ->
    flat_post s s' es f [n] 2.
  Proof.
    intros Hes W Hd H. destruct es as [|e0 er] eqn:Ees; [congruence|]. rewrite <- Ees in *. rewrite (flatten_trace_eq Ees) in H.
    apply bind_inv in H. destruct H as (ed0 & s1 & H1 & H). apply get_edge_inv in H1. destruct H1 as (-> & E0 & D0).
    assert (forall c, In c es -> exists a b, a < b /\ slot s (n, a) = Some c /\ slot s (n, b) = Some c /\
              (forall p, slot s p = Some c -> p = (n, a) \/ p = (n, b)) /\
              tpair s c = (a, b)) as Htr.
    { intros c Hc. destruct (Hd c Hc) as ((p & Hs) & ed & E & Dis & Es). unfold edge_set_is in Es.
      destruct ed as [n1 a1 [[m a2]|] ds]; cbn [e_2 e_n1 e_dis] in *; [|discriminate].
      assert (n1 = n /\ m = n) as [-> ->].
      { apply orb_true_iff in Es. destruct Es as [Es|Es]; apply andb_true_iff in Es; destruct Es as [K1 K2]; apply Nat.eqb_eq in K1, K2; auto. }
      subst ds. pose proof (ends_live W Hs E) as L. pose proof (fun q Hq => live_in_ends (p := q) W Hq E) as L'.
      destruct (wf_slot W Hs) as (ed' & K & _ & _ & Hnd & _). rewrite E in K. injection K as <-.
      unfold ends in *. cbn [e_n1 e_a1 e_2] in *.
      assert (a1 <> a2) as Hne.
      { intros ->. apply NoDup_cons_iff in Hnd. destruct Hnd as [K _]. apply K. left. reflexivity. }
      exists (Nat.min a1 a2), (Nat.max a1 a2).
      assert (slot s (n, a1) = Some c) as La by (apply L; left; reflexivity).
      assert (slot s (n, a2) = Some c) as Lb by (apply L; right; left; reflexivity).
      split; [lia|]. split; [destruct (Nat.min_spec a1 a2) as [[_ ->]|[_ ->]]; assumption|].
      split; [destruct (Nat.max_spec a1 a2) as [[_ ->]|[_ ->]]; assumption|]. split.
      - intros q Hq. apply L' in Hq. destruct Hq as [<-|[<-|[]]];
          destruct (Nat.min_spec a1 a2) as [[? ->]|[? ->]], (Nat.max_spec a1 a2) as [[? ->]|[? ->]]; auto; try lia.
      - unfold tpair. rewrite E. reflexivity. }
    assert (e_n1 ed0 = n) as En.
    { assert (In e0 es) as Hc by (rewrite Ees; left; reflexivity).
      destruct (Hd e0 Hc) as (_ & ed & E & _ & Es). rewrite E0 in E. injection E as <-. unfold edge_set_is in Es.
      destruct (e_2 ed0) as [q|] eqn:E2; [|discriminate]. destruct q as [q1 q2]. apply orb_true_iff in Es.
      destruct Es as [Es|Es]; apply andb_true_iff in Es; destruct Es as [K1 K2]; apply Nat.eqb_eq in K1, K2; auto. }
    rewrite En in H. unfold flatten_trace_body in H. clear e0 er Ees ed0 E0 D0 En.
    apply bind_inv in H. destruct H as (nd & s1 & H1 & H). apply get_node_inv in H1. destruct H1 as [-> Hn].
    apply bind_inv in H. destruct H as (ps & s1 & H1 & H). apply trace_pairs_inv in H1. destruct H1 as [-> Eps].
    assert (forall c, In c es -> let p := tpair s c in fst p < snd p /\ nth_error (n_edges nd) (fst p) = Some c /\ nth_error (n_edges nd) (snd p) = Some c /\
              (forall q, slot s q = Some c -> q = (n, fst p) \/ q = (n, snd p))) as Hp2.
    { intros c Hc. cbn zeta. destruct (Htr c Hc) as (a & b & Hab & Sa & Sb & Ho & ->). cbn [fst snd]. split; [exact Hab|].
      apply slot_node in Sa, Sb. destruct Sa as (x1 & X1 & Sa). destruct Sb as (x2 & X2 & Sb). rewrite Hn in X1, X2. injection X1 as <-. injection X2 as <-. auto. }
    clear Htr.
    cbn zeta in H.
    set (A := map fst ps) in *. set (B := map snd ps) in *. set (bk := A ++ B) in *. set (fr := free_axes (length (n_edges nd)) bk) in *.
    set (D := nprod (map (fun p => nth (fst p) (shape (n_t nd)) 0) ps)) in *.
    apply bind_inv in H. destruct H as (u1 & s1 & H1 & H). apply reorder_axes_inv in H1. destruct H1 as (nd0 & K & Hp & Hr).
    rewrite Hn in K. injection K as <-.
    pose proof Hr as (R1 & R2 & R3 & R4).
    assert (s_nodes s1 n = Some (Node (transpose (n_t nd) (fr ++ bk)) (gather 0 (n_edges nd) (fr ++ bk)) (gather 0 (n_names nd) (fr ++ bk)))) as Hn1
      by (rewrite R3, Nat.eqb_refl; reflexivity).
    apply bind_inv in H. destruct H as (nd' & s2 & H1 & H). apply get_node_inv in H1. destruct H1 as [-> H1].
    rewrite Hn1 in H1. injection H1 as <-. cbn [n_t n_edges n_names] in H.
    apply bind_inv in H. destruct H as (e1 & s2 & H1 & H). injection H1 as <- <-.
    apply bind_inv in H. destruct H as (e2 & s2 & H1 & H). injection H1 as <- <-.
    apply bind_inv in H. destruct H as (u2 & s2 & H1 & H). apply set_node_inv in H1.
    apply bind_inv in H. destruct H as (e & s3 & H3 & H). 
    apply bind_inv in H. destruct H as (u3 & s4 & H4 & H). injection H as <- <-.
    assert (retail s s2 n nd bk [D; D]) as T.
    { eapply (@retail_intro R (fun _ => False) s s1); [exact W|apply (wf_live_at W)|exact Hn|exact Hp|exact Hr|]. fold fr. subst s2. split; [|split; [|split]].
      - reflexivity.
      - cbn. lia.
      - intros m. cbn [s_nodes with_node n_edges length seq s_ne]. unfold upd. destruct (Nat.eqb_spec m n), (Nat.eq_dec m n); try congruence; try reflexivity.
      - intros c. cbn [s_edges with_node length s_ne]. unfold upd. destruct (Nat.eq_dec c (S (s_ne s1))) as [->|Hne].
        + rewrite (proj2 (Nat.leb_le _ _)), (proj2 (Nat.ltb_lt _ _)) by lia. cbn [andb]. do 2 f_equal. lia.
        + destruct (Nat.eq_dec c (s_ne s1)) as [->|Hne'].
          * rewrite (proj2 (Nat.leb_le _ _)), (proj2 (Nat.ltb_lt _ _)) by lia. cbn [andb]. do 2 f_equal. lia.
          * destruct (Nat.leb_spec (s_ne s1) c), (Nat.ltb_spec c (s_ne s1 + 2)); cbn [andb]; try reflexivity. lia. }
    clear H1. cbn [s_ne] in H3. rewrite R2 in H3. clear R1 R2 R3 R4 Hn1 Hr s1.
    pose proof (rt_perm T) as Hpp.
    destruct (back_perm_NoDup Hpp) as [Nbk Bbk].
    assert (gather 0 (n_edges nd) A = es /\ gather 0 (n_edges nd) B = es) as [GA GB].
    { unfold A, B. rewrite Eps, !map_map. unfold gather. rewrite !map_map.
      split; (etransitivity; [apply map_ext_in|apply map_id]); intros c Hc; cbn beta; destruct (Hp2 c Hc) as (_ & K1 & K2 & _);
        [apply (nth_error_nth _ _ 0 K1)|apply (nth_error_nth _ _ 0 K2)]. }
    assert (gather 0 (n_edges nd) bk = es ++ es) as G by (unfold bk; rewrite gather_app, GA, GB; reflexivity).
    pose proof (rt_wf T W) as W2. cbn beta in W2. rewrite G in W2.
    assert (NoDup es) as Nes.
    { assert (NoDup A) as NA by (unfold bk in Nbk; apply NoDup_app_iff in Nbk; apply Nbk).
      unfold A in NA. rewrite Eps, map_map in NA. apply NoDup_map_inv in NA. exact NA. }
    assert (forall c, In c es -> In c (n_edges nd)) as Hin by (intros c Hc; destruct (Hp2 c Hc) as (_ & K1 & _); apply (nth_error_In _ _ K1)).
    assert (forall c j, In c es -> slot s (n, j) = Some c -> In j bk) as InB.
    { intros c j Hc Hs. destruct (Hp2 c Hc) as (_ & _ & _ & O). unfold bk, A, B. rewrite Eps, !map_map. apply in_or_app.
      destruct (O _ Hs) as [K|K]; injection K as ->; [left|right]; apply in_map_iff; exists c; auto. }
    assert (forall c, In c es -> ~ In c (gather 0 (n_edges nd) fr)) as NF.
    { intros c Hc K. apply In_gather in K. destruct K as (j & Hj & Ej). apply In_free_axes in Hj. destruct Hj as [Hj1 Hj2].
      apply Hj2. apply (InB c); [exact Hc|]. apply (slot_intro Hn). rewrite Ej. apply nth_error_nth'. exact Hj1. }
    assert (forall c, In c es -> c < s_ne s) as Les by (intros c Hc; apply (node_edge_lt W Hn (Hin c Hc))).
    assert (forall p c, slot s2 p = Some c -> ~ In c es) as Gone.
    { intros [m k] c Hs Hc. pose proof (Les c Hc) as Lc.
      destruct (retail_slot Hn T Hs Lc) as [(Em & j & Hjf & Hs0)|[Em Hs0]].
      - cbn in Em. subst m. apply (NF c Hc). apply In_gather. exists j. split; [exact Hjf|]. apply slot_node in Hs0.
        destruct Hs0 as (d & Ed & Ek). rewrite Hn in Ed. injection Ed as <-. symmetry. apply (nth_error_nth _ _ 0 Ek).
      - cbn in Em. destruct (Hp2 c Hc) as (_ & _ & _ & O). destruct (O _ Hs0) as [K|K]; injection K as K _; contradiction. }
    assert (wf s2) as W2'.
    { apply (wfx_strengthen (X := fun e0 : eid => False \/ In e0 (es ++ es))); [|exact W2].
      intros p c Hs [[]|K]. apply in_app_or in K. destruct K as [K|K]; apply (Gone p c Hs K). }
    pose proof (retail_new_slot (i := 0) T ltac:(cbn; lia)) as S1. pose proof (retail_new_slot (i := 1) T ltac:(cbn; lia)) as S2.
    fold fr in S1, S2. rewrite Nat.add_0_r in S1. rewrite Nat.add_0_r in S1. rewrite !Nat.add_1_r in S2.
    destruct (connect_inv W2' (ex_intro _ _ S1) (ex_intro _ _ S2) H3) as (p1 & p2 & C).
    pose proof (connect_wf W2' C) as W3.
    assert (s_ne s2 = S (S (s_ne s))) as Ne2 by (rewrite (rt_ne T); cbn; lia).
    assert (e = S (S (s_ne s))) as Ee by (rewrite (cp_e C); exact Ne2).
    assert (forall p c, slot s3 p = Some c -> ~ In c es) as Gone3.
    { intros p c Hs Hc. rewrite (cp_slot C) in Hs. destruct (slot_eqb_spec p p1); [injection Hs as <-; specialize (Les _ Hc); lia|].
      destruct (slot_eqb_spec p p2); [injection Hs as <-; specialize (Les _ Hc); lia|]. apply (Gone p c Hs Hc). }
    destruct (disable_wf W3 H4 Gone3) as (W4 & N4 & Nn4 & Ne4 & E4).
    destruct (rt_node T) as (nm & Nn2). cbn [length seq] in Nn2. fold fr in Nn2.
    assert (forall i, In i fr -> i < length (n_edges nd)) as Bf by (intros i Hi; apply In_free_axes in Hi; apply Hi).
    assert (forall c, In c (gather 0 (n_edges nd) fr) -> c < s_ne s) as LF
      by (intros c Hc; apply (node_edge_lt W Hn); apply (gather_In_bound Bf Hc)).
    assert (s_nodes s4 n = Some (Node (retensor (n_t nd) bk [D; D]) (gather 0 (n_edges nd) fr ++ [e; e]) nm)) as Nn.
    { rewrite N4, (connect_nodes n W2' C), Nn2. cbn [option_map n_t n_edges n_names]. do 2 f_equal.
      rewrite map_app. f_equal.
      - apply map_ren2_id. intros c Hc. specialize (LF c Hc). lia.
      - cbn [map]. unfold ren2. rewrite !Nat.eqb_refl, orb_true_r. reflexivity. }
    assert (forall m, m <> n -> s_nodes s4 m = s_nodes s m) as Oth.
    { intros m Mn. rewrite N4, (connect_nodes m W2' C), (rt_others T) by auto.
      destruct (s_nodes s m) as [d|] eqn:Em; [|reflexivity]. cbn. f_equal. destruct d as [t es0 nm0]. cbn. f_equal.
      apply map_ren2_id. intros c Hc. pose proof (node_edge_lt W Em Hc). lia. }
    pose proof (wf_fits W Hn) as Ft. unfold fits in Ft. cbn [fst snd] in Ft.
    assert (forall i, In i A -> i < length (n_edges nd)) as BA by (intros i Hi; apply Bbk; unfold bk; apply in_or_app; auto).
    assert (forall i, In i B -> i < length (n_edges nd)) as BB by (intros i Hi; apply Bbk; unfold bk; apply in_or_app; auto).
    assert (gather 0 (shape (n_t nd)) A = map (edim s) es) as EA by (rewrite Ft, <- GA at 1; symmetry; apply map_gather; exact BA).
    assert (gather 0 (shape (n_t nd)) B = map (edim s) es) as EB by (rewrite Ft, <- GB at 1; symmetry; apply map_gather; exact BB).
    assert (D = nprod (map (edim s) es)) as ED by (rewrite <- EA; unfold D, A, gather; rewrite map_map; reflexivity).
    assert (gather 0 (shape (n_t nd)) fr = map (edim s) (gather 0 (n_edges nd) fr)) as Ef by (rewrite Ft; symmetry; apply map_gather; exact Bf).
    split.
    - exact W4.
    - rewrite Nn4, (cp_nn C), (rt_nn T). reflexivity.
    - lia.
    - exact Nes.
    - exists (gather 0 (n_edges nd) fr). split.
      + repeat constructor. intros [].
      + intros m Hm. apply Oth. intros ->. apply Hm. left. reflexivity.
      + cbn [net_of map repeat concat]. rewrite !net_labels_cons, (fac_node Hn). cbn [snd net_labels flat_map].
        rewrite !app_nil_r. rewrite (labels_front_back Hpp) at 1. fold fr. rewrite G. apply Permutation_app_comm.
      + cbn [net_of map repeat]. rewrite !net_labels_cons, (fac_node Nn). cbn [snd net_labels flat_map n_edges].
        rewrite !app_nil_r. apply Permutation_app_comm.
      + exact Nes.
      + exact NF.
      + intros K. specialize (LF _ K). lia.
      + intros c p Hc Hs. destruct (Hp2 c Hc) as (_ & _ & _ & O). destruct (O _ Hs) as [->| ->]; left; reflexivity.
      + intros p _ K. pose proof (slot_lt W K) as [_ Hlt]. lia.
      + intros m [<-|[]]. rewrite (fac_node Nn). cbn [n_t n_edges]. unfold fits. cbn [fst snd].
        unfold retensor. cbn [reshape shape]. rewrite <- (wf_rank W Hn). fold fr. rewrite map_app. cbn [map]. rewrite upd_same, Ef, <- ED. f_equal.
        apply map_ext_in. intros c Hc. symmetry. apply upd_other. intros ->. specialize (LF _ Hc). lia.
      + intros b Hb Hbm m [<-|[]]. rewrite (fac_node Nn), (fac_node Hn).
        cbn [n_t n_edges]. assert (nprod [D; D] = D * D) as EDD by (cbn [nprod fold_right]; lia).
        apply retensor_fval; fold fr.
        * symmetry. apply (wf_rank W Hn).
        * exact Hpp.
        * rewrite EDD. unfold bk. rewrite gather_app, EA, EB, nprod_app, <- ED. reflexivity.
        * rewrite Ef. apply valid_map_asg. exact Hbm.
        * cbn [map]. rewrite ED. repeat constructor; exact Hb.
        * apply map_ext_in. intros x Hxf. apply binds_other. intros K. apply (NF x K Hxf).
        * rewrite G, map_app. rewrite map_binds; [|exact Nes|rewrite unravel_length, map_length; reflexivity].
          unfold bk. rewrite gather_app, EA, EB. cbn [map].
          replace (ravel [D; D] [b e; b e]) with (b e * nprod (map (edim s) es) + b e).
          -- rewrite unravel_app by exact Hb. reflexivity.
          -- rewrite <- ED. cbn [ravel nprod fold_right]. lia.
    - eexists. split.
      + rewrite E4; [apply (cp_edge C)|]. intros K. specialize (Les _ K). lia.
      + cbn [Nat.eqb]. unfold ends. cbn [map fst e_n1 e_a1 e_2].
        pose proof (dangling_slot W2' S1 (cp_ed1 C) eq_refl) as Q1. pose proof (dangling_slot W2' S2 (cp_ed2 C) eq_refl) as Q2.
        cbn in Q1, Q2. injection Q1 as Q1 _. injection Q2 as Q2 _. rewrite <- Q1, <- Q2. reflexivity.
    - intros m [<-|[]]. exists nd. eexists. split; [exact Hn|]. split; [exact Nn|]. cbn [n_edges repeat]. f_equal.
      rewrite kept_gather. f_equal. unfold fr, free_axes. apply filter_ext_seq. intros i Hi. unfold keepP. f_equal.
      destruct (mem (nth i (n_edges nd) 0) es) eqn:E.
      + apply mem_In in E. apply mem_In. apply (InB _ i E). apply (slot_intro Hn). apply nth_error_nth'. exact Hi.
      + apply mem_nIn in E. apply mem_nIn. intros K. apply E. unfold bk in K. apply in_app_or in K. unfold A, B in K. rewrite Eps, !map_map in K.
        destruct K as [K|K]; apply in_map_iff in K; destruct K as (c & <- & Hc); destruct (Hp2 c Hc) as (_ & K1 & K2 & _);
          [rewrite (nth_error_nth _ _ 0 K1)|rewrite (nth_error_nth _ _ 0 K2)]; exact Hc.
  Qed.

  (** ** flatten_edges, all cases *)
  Variable iter : list nat -> list nat.
  Hypothesis iter_perm : forall l, Permutation (iter l) l.

  Lemma perm_two (l : list nat) a b : Permutation l [a; b] -> l = [a; b] \/ l = [b; a].
  Proof.
    intros H. destruct (Permutation_length_2_inv (Permutation_sym H)) as [-> | ->]; auto.
  Qed.

  Theorem flatten_edges_post es s s' f :
    wf s -> (forall c, In c es -> exists p, slot s p = Some c) -> flatten_edges iter es s = (s', Some f) ->
    (es = [f] /\ s' = s) \/
    exists P mult, flat_post s s' es f P mult /\
      ((mult = 1 /\ exists n, P = [n] /\ forall c, In c es -> exists a, s_edges s c = Some (Edge n a None false)) \/
       (mult = 2 /\ (exists n, P = [n] /\ forall c, In c es -> exists ed, s_edges s c = Some ed /\ joins ed n n = true) \/
        (mult = 2 /\ exists u v, P = [u; v] /\ u <> v /\ forall c, In c es -> exists ed, s_edges s c = Some ed /\ joins ed u v = true))).
  Proof.
    intros W Hl H. destruct es as [|e0 [|e1 er]]; [discriminate| |].
    - cbn [flatten_edges] in H. apply bind_inv in H. destruct H as (ed & s1 & H1 & H). apply get_edge_inv in H1. destruct H1 as (-> & E & D).
      injection H as <- <-. left. auto.
    - right. unfold flatten_edges in H. set (es := e0 :: e1 :: er) in *.
      apply bind_inv in H. destruct H as (ed0 & s1 & H1 & H). apply get_edge_inv in H1. destruct H1 as (-> & E0 & D0).
      cbn zeta in H. destruct (e_2 ed0) as [[q a2]|] eqn:E2.
      + apply bind_inv in H. destruct H as (x & s1 & H1 & H). apply check_same_nodes_inv in H1. destruct H1 as [-> Hc].
        destruct (Nat.eqb_spec (e_n1 ed0) q) as [Eq|Nq].
        * exists [q], 2. rewrite <- Eq in *. split.
          -- apply flatten_trace; [discriminate|exact W| |exact H]. intros c Hin. split; [apply Hl; exact Hin|apply Hc; exact Hin].
          -- right. left. split; [reflexivity|]. exists (e_n1 ed0). split; [reflexivity|]. intros c Hin. destruct (Hc c Hin) as (ed & K1 & K2 & K3).
             exists ed. split; [exact K1|]. unfold joins. rewrite K2. unfold edge_set_is in K3. destruct (e_2 ed) as [[m ?]|]; exact K3.
        * assert (forall u v, Permutation [u; v] [e_n1 ed0; q] -> u <> v /\ forall c, In c es -> exists ed, s_edges s c = Some ed /\ joins ed u v = true) as Huv.
          { intros u v Hp. apply perm_two in Hp. split.
            - destruct Hp as [K|K]; injection K as -> ->; auto.
            - intros c Hin. destruct (Hc c Hin) as (ed & K1 & K2 & K3). exists ed. split; [exact K1|]. unfold joins. rewrite K2. unfold edge_set_is in K3.
              destruct (e_2 ed) as [[m ?]|]; [|discriminate]. destruct Hp as [K|K]; injection K as -> ->; [exact K3|]. rewrite orb_comm. exact K3. }
          pose proof (iter_perm [e_n1 ed0; q]) as Hp. destruct (iter [e_n1 ed0; q]) as [|u [|v [|]]] eqn:Ei; try discriminate.
          destruct (Huv u v Hp) as [Nuv Hj]. exists [u; v], 2.
          apply bind_inv in H. destruct H as (f1 & s1 & H1 & H). apply bind_inv in H. destruct H as (f2 & s2 & H2 & H).
          apply bind_inv in H. destruct H as (x3 & s3 & H3 & H). split.
          -- eapply flatten_two; eauto.
          -- right. right. split; [reflexivity|]. exists u, v. auto.
      + apply bind_inv in H. destruct H as (x & s1 & H1 & H). apply check_same_nodes_inv in H1. destruct H1 as [-> Hc].
        apply bind_inv in H. destruct H as (f1 & s1 & H1 & H). apply bind_inv in H. destruct H as (x3 & s3 & H3 & H). injection H as <- <-.
        exists [e_n1 ed0], 1. split.
        * eapply flatten_dangling; eauto.
        * left. split; [reflexivity|]. exists (e_n1 ed0). split; [reflexivity|]. intros c Hin. destruct (Hc c Hin) as (ed & K1 & K2 & K3).
          unfold edge_set_is in K3. destruct ed as [n1 a1 [[m ?]|] ds]; cbn [e_2 e_n1 e_dis] in *; [discriminate|]. apply Nat.eqb_eq in K3. subst. eauto.
  Qed.
End GF.
