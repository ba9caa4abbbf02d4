(** * GraphTrace: open labels under contraction; contracting the trace edges of one node together *)
From Verif Require Import Prelude Algebra Tensor TensorFacts Einsum EinsumFacts NetworkFacts Graph GraphBase GraphContract GraphOps GraphValue GraphOuter GraphConnect GraphJoin GraphBetween GraphRetail GraphFuse GraphFlatten.
Set Implicit Arguments.
Unset Strict Implicit.

Section GT.
  Context {R : csr}.
  Notation st := (@st R).
  Notation M := (@M R).
  Notation node := (@node R).
  Implicit Types (s : st) (e : eid).
  Notation cnt := (count_occ Nat.eq_dec).

  (** ** an edge occurs at most twice in a network *)
  Definition occ s (S : list nid) e : list (nid * nat) :=
    flat_map (fun n => map (pair n) (filter (fun k => match slot s (n, k) with Some f => Nat.eqb f e | None => false end)
      (seq 0 (length (snd (fac s n)))))) S.

  Lemma occ_length s S e : length (occ s S e) = cnt (net_labels (net_of s S)) e.
  Proof.
    induction S as [|n S IH]; [reflexivity|]. unfold occ in *. cbn [flat_map net_of map]. rewrite net_labels_cons, app_length, count_occ_app, map_length.
    fold (net_of s S). rewrite IH. f_equal. symmetry. apply cnt_fac.
  Qed.
  Lemma occ_slot s S e p : In p (occ s S e) <-> In (fst p) S /\ slot s p = Some e.
  Proof.
    unfold occ. rewrite in_flat_map. split.
    - intros (n & Hn & Hp). apply in_map_iff in Hp. destruct Hp as (k & <- & Hk). apply filter_In in Hk. destruct Hk as [_ Hk].
      split; [exact Hn|]. destruct (slot s (n, k)) as [f|]; [|discriminate]. apply Nat.eqb_eq in Hk. congruence.
    - intros [Hn Hs]. destruct p as [n k]. exists n. split; [exact Hn|]. apply in_map_iff. exists k. split; [reflexivity|].
      apply filter_In. cbn [fst] in *. split.
      + apply in_seq. unfold fac. unfold slot in Hs. cbn [fst snd] in Hs. destruct (s_nodes s n); [|discriminate].
        assert (k < length (n_edges n0)) by (apply nth_error_Some; congruence). cbn. lia.
      + rewrite Hs. apply Nat.eqb_refl.
  Qed.
  Lemma NoDup_flat_map_pair (f : nid -> list nat) S : NoDup S -> (forall n, In n S -> NoDup (f n)) -> NoDup (flat_map (fun n => map (pair n) (f n)) S).
  Proof.
    induction S as [|n S IH]; intros HS Hf; [constructor|]. cbn. apply NoDup_cons_iff in HS. destruct HS as [H1 HS].
    apply NoDup_app_iff. repeat split.
    - apply FinFun.Injective_map_NoDup; [intros x y E; congruence|apply Hf; left; reflexivity].
    - apply IH; [exact HS|]. intros m Hm. apply Hf. right. exact Hm.
    - intros p Hp K. apply in_map_iff in Hp. destruct Hp as (k & <- & _). apply in_flat_map in K. destruct K as (m & Hm & K).
      apply in_map_iff in K. destruct K as (j & E & _). injection E as -> _. contradiction.
  Qed.
  Lemma occ_NoDup s S e : NoDup S -> NoDup (occ s S e).
  Proof. intros HS. apply NoDup_flat_map_pair; [exact HS|]. intros n _. apply NoDup_filter. apply seq_NoDup. Qed.

  Lemma cnt_le_2 s S e : wf s -> NoDup S -> cnt (net_labels (net_of s S)) e <= 2.
  Proof.
    intros W HS. rewrite <- occ_length. destruct (occ s S e) as [|p l] eqn:E; [cbn; lia|]. rewrite <- E.
    assert (slot s p = Some e) as Hp by (apply (occ_slot s S); rewrite E; left; reflexivity).
    destruct (wf_slot W Hp) as (ed & Ed & _). etransitivity; [apply (NoDup_incl_length (occ_NoDup s e HS) (l' := ends ed))|].
    - intros q Hq. apply occ_slot in Hq. apply (live_in_ends W (proj2 Hq) Ed).
    - unfold ends. destruct (e_2 ed); cbn; lia.
  Qed.

  (** a dangling edge of a node of S is an open label; a label is open when exactly one of its ends lies in S *)
  Lemma dangling_open s S n k e a1 : wf s -> NoDup S -> In n S -> slot s (n, k) = Some e -> s_edges s e = Some (Edge n a1 None false) ->
    cnt (net_labels (net_of s S)) e = 1.
  Proof.
    intros W HS Hn Hs E. apply (@cnt_one _ s S n k e HS Hn Hs). intros m j Hj.
    pose proof (dangling_slot W Hs E eq_refl) as K1. pose proof (dangling_slot W Hj E eq_refl) as K2. congruence.
  Qed.

  (** ** contraction keeps the open labels and their dimensions *)
  Lemma net_labels_app (x y : list (factor nat R)) : net_labels (x ++ y) = net_labels x ++ net_labels y.
  Proof. unfold net_labels. apply flat_map_app. Qed.

  Lemma contracted_open s s' olds N S : wf s -> contracted s s' olds N -> NoDup (olds ++ S) -> ~ In N S ->
    (forall x, cnt (net_labels (net_of s' (N :: S))) x = 1 <-> cnt (net_labels (net_of s (olds ++ S))) x = 1) /\
    (forall x, In x (net_labels (net_of s' (N :: S))) -> edim s' x = edim s x).
  Proof.
    intros W C HS HN.
    assert (net_of s' S = net_of s S) as ES.
    { apply net_of_ext. intros m Hm. apply (ct_others C); [|intros ->; contradiction]. intros K. apply NoDup_app_iff in HS. apply (proj2 (proj2 HS) m K Hm). }
    split.
    - intros x. destruct (ct_perm C) as (cut & Hc).
      pose proof (cnt_le_2 x W HS) as L. rewrite net_of_app, net_labels_app, count_occ_app, (cnt_perm Nat.eq_dec x Hc), !count_occ_app in *.
      change (N :: S) with ([N] ++ S). rewrite net_of_app, net_labels_app, count_occ_app, ES. lia.
    - intros x Hx. cbn [net_of map] in Hx. rewrite net_labels_cons in Hx. apply in_app_or in Hx.
      destruct Hx as [Hx|Hx].
      + apply (fits_agree (fac_fits N (ct_wf C)) (ct_fits C) Hx).
      + fold (net_of s' S) in Hx. pose proof Hx as Hx'. apply (In_net_labels S x (ct_wf C)) in Hx. destruct Hx as (m & k & Hm & Hk).
        assert (s_nodes s' m = s_nodes s m) as Em.
        { apply (ct_others C); [|intros ->; contradiction]. intros K. apply NoDup_app_iff in HS. apply (proj2 (proj2 HS) m K Hm). }
        pose proof (edim_dimat (ct_wf C) Hk) as K1. unfold slot in Hk. unfold dimat in K1. cbn [fst snd] in *. rewrite Em in *.
        pose proof (@edim_dimat _ s (m, k) x W Hk) as K2. unfold dimat in K2. cbn [fst snd] in K2. congruence.
  Qed.

  Lemma contracted_open_ok s s' olds N S a : wf s -> contracted s s' olds N -> NoDup (olds ++ S) -> ~ In N S ->
    (open_ok s (olds ++ S) a <-> open_ok s' (N :: S) a).
  Proof.
    intros W C HS HN. destruct (contracted_open W C HS HN) as [H1 H2]. split; intros K x Hx.
    - rewrite H2; [apply K; apply H1; exact Hx|]. apply (count_occ_In Nat.eq_dec). lia.
    - rewrite <- H2; [apply K; apply H1; exact Hx|]. apply (count_occ_In Nat.eq_dec). apply H1 in Hx. lia.
  Qed.

  (** ** fusing keeps the open labels *)
  Lemma fuse_open_ok s s' P ES f Mo S a : wf s -> wf s' -> fuse_data s s' P ES f Mo 2 -> NoDup S -> incl P S ->
    (open_ok s S a <-> open_ok s' S a).
  Proof.
    intros W W' F HS HI. destruct (fuse_setup F HS HI) as (S' & HP & D & E & L' & L).
    cbn [repeat concat] in L, L'. rewrite app_nil_r in L. set (rest := Mo ++ net_labels (net_of s S')) in *.
    assert (forall x, In x rest -> ~ In x ES /\ x <> f) as Hr.
    { intros x Hx. apply in_app_or in Hx. destruct Hx as [Hx|Hx]; [|apply (fd_rest W F D Hx)].
      split; [intros K; apply (fd_ESM F K Hx)|intros ->; apply (fd_fM F Hx)]. }
    assert (forall x, cnt (net_labels (net_of s S)) x = 1 <-> cnt rest x = 1) as C1.
    { intros x. rewrite (cnt_perm Nat.eq_dec x L), !count_occ_app. fold rest.
      destruct (in_dec Nat.eq_dec x rest) as [Hx|Hx].
      - destruct (Hr x Hx) as [K _]. apply (count_occ_not_In Nat.eq_dec) in K. unfold rest. rewrite count_occ_app. lia.
      - apply (count_occ_not_In Nat.eq_dec) in Hx. unfold rest in Hx. rewrite count_occ_app in Hx. unfold rest. rewrite count_occ_app. lia. }
    assert (forall x, cnt (net_labels (net_of s' S)) x = 1 <-> cnt rest x = 1) as C2.
    { intros x. rewrite (cnt_perm Nat.eq_dec x L'). cbn [app]. fold rest. cbn [count_occ].
      destruct (Nat.eq_dec f x) as [<-|Hne]; [|reflexivity].
      assert (cnt rest f = 0) as ->; [|lia]. apply (count_occ_not_In Nat.eq_dec). intros K. apply (proj2 (Hr f K) eq_refl). }
    assert (forall x, cnt rest x = 1 -> edim s' x = edim s x) as C3.
    { intros x Hx. assert (In x rest) as Hin by (apply (count_occ_In Nat.eq_dec); lia).
      assert (In x (net_labels (net_of s' S))) as Hl by (apply (count_occ_In Nat.eq_dec); apply C2 in Hx; lia).
      apply (In_net_labels S x W') in Hl. destruct Hl as (m & k & _ & Hs). rewrite (fd_edim W W' F Hs).
      apply (fd_dimM W F D Hin). }
    split; intros K x Hx.
    - apply C2 in Hx. rewrite (C3 x Hx). apply K. apply C1. exact Hx.
    - apply C1 in Hx. rewrite <- (C3 x Hx). apply K. apply C2. exact Hx.
  Qed.

  Lemma free_labels_kept (es ax cut : list nat) : (forall j, j < length es -> (In j ax <-> In (nth j es 0) cut)) ->
    free_labels 0 es ax = kept_of cut es.
  Proof.
    intros H. rewrite kept_gather. unfold free_labels, free_axes. f_equal. apply filter_ext_seq. intros i Hi. unfold keepP. f_equal.
    apply eq_true_iff_eq. rewrite !mem_In. apply (H i Hi).
  Qed.

  (** contract_trace: the remaining edges in order *)
  Lemma trace_step e ed n a2 s s' N : wf s -> (exists p, slot s p = Some e) -> s_edges s e = Some ed -> e_n1 ed = n -> e_2 ed = Some (n, a2) ->
    contract_trace e s = (s', Some N) ->
    contracted s s' [n] N /\
    exists nd nd', s_nodes s n = Some nd /\ s_nodes s' N = Some nd' /\ n_edges nd' = kept_of [e] (n_edges nd).
  Proof.
    intros W Hp E <- E2 H. destruct (contract_trace_step W Hp E E2 H) as (C & nd & nms & Hn & HN). cbn zeta in HN.
    split; [exact C|]. exists nd. eexists. split; [exact Hn|]. split; [exact HN|]. cbn [n_edges].
    destruct Hp as (p & Hp).
    assert (forall q, In q (ends ed) -> slot s q = Some e) as Hl by (intros q Hq; apply (ends_live W Hp E Hq)).
    assert (forall q, slot s q = Some e -> In q (ends ed)) as Hl' by (intros q Hq; apply (live_in_ends W Hq E)).
    unfold ends in Hl, Hl'. rewrite E2 in Hl, Hl'.
    apply free_labels_kept. intros j Hj. pose proof (nth_error_nth' _ 0 Hj) as Hjn. split.
    - intros K. left. assert (slot s (e_n1 ed, j) = Some e) as Hs.
      { apply Hl. cbn in K |- *. destruct (Nat.min_spec (e_a1 ed) a2) as [[? K1]|[? K1]], (Nat.max_spec (e_a1 ed) a2) as [[? K2]|[? K2]];
          rewrite K1, K2 in K; intuition congruence. }
      apply slot_node in Hs. destruct Hs as (nd0 & K1 & K2). rewrite Hn in K1. injection K1 as <-. rewrite Hjn in K2. congruence.
    - intros [K|[]]. rewrite <- K in Hjn. pose proof (Hl' _ (slot_intro Hn Hjn)) as Q.
      cbn [In] in Q |- *. destruct Q as [Q|[Q|[]]]; injection Q as <-; lia.
  Qed.

  Lemma joins_self_ends ed n : joins ed n n = true -> e_n1 ed = n /\ exists a2, e_2 ed = Some (n, a2).
  Proof.
    unfold joins. destruct (e_2 ed) as [[m a2]|]; [|rewrite andb_false_r; discriminate]. intros H. apply andb_true_iff in H. destruct H as [_ H].
    apply orb_true_iff in H. destruct H as [H|H]; apply andb_true_iff in H; destruct H as [H1 H2]; apply Nat.eqb_eq in H1, H2; subst; eauto.
  Qed.

  Lemma kept_app cut x y : kept_of cut (x ++ y) = kept_of cut x ++ kept_of cut y.
  Proof. apply filter_app. Qed.
  Lemma kept_none cut x : (forall e, In e x -> ~ In e cut) -> kept_of cut x = x.
  Proof.
    intros H. unfold kept_of. induction x as [|e r IH]; [reflexivity|]. cbn [filter].
    assert (mem e cut = false) as -> by (apply mem_nIn; apply H; left; reflexivity). cbn. f_equal. apply IH. intros c Hc. apply H. right. exact Hc.
  Qed.

  Variable iter : list nat -> list nat.
  Hypothesis iter_perm : forall l, Permutation (iter l) l.

  (** flattening all trace edges of n and contracting the result *)
  Lemma trace_all n es s s' N : wf s -> es <> [] -> (forall c, In c es -> (exists p, slot s p = Some c) /\ exists ed, s_edges s c = Some ed /\ joins ed n n = true) ->
    bind (flatten_edges iter es) (fun e => contract e None) s = (s', Some N) ->
    contracted s s' [n] N /\
    exists nd nd', s_nodes s n = Some nd /\ s_nodes s' N = Some nd' /\ n_edges nd' = kept_of es (n_edges nd).
  Proof.
    intros W Hne Hes H. apply bind_inv in H. destruct H as (f & s1 & H1 & H).
    apply flatten_edges_post in H1; [|exact iter_perm|exact W|intros c Hc; apply Hes; exact Hc].
    assert (forall s0 ed, s_edges s0 f = Some ed -> joins ed n n = true -> contract f None s0 = (s', Some N) -> contract_trace f s0 = (s', Some N)) as Hct.
    { intros s0 ed E J K. unfold contract in K. apply bind_inv in K. destruct K as (ed' & s2 & K1 & K). apply get_edge_inv in K1. destruct K1 as (-> & K1 & _).
      rewrite E in K1. injection K1 as <-. destruct (joins_self_ends J) as (En & a2 & E2). rewrite E2, En, Nat.eqb_refl in K. exact K. }
    destruct H1 as [(-> & ->)|(P & mult & F & H1)].
    - destruct (Hes f (or_introl eq_refl)) as (Hp & ed & E & J). destruct (joins_self_ends J) as (En & a2 & E2).
      apply (trace_step W Hp E En E2). apply (Hct s ed E J H).
    - assert (exists c, In c es) as (c & Hc) by (destruct es; [congruence|]; eexists; left; reflexivity).
      destruct (Hes c Hc) as (Hp & edc & Ec & Jc). destruct (joins_self_ends Jc) as (Enc & ac & E2c).
      assert (mult = 2 /\ P = [n]) as [-> ->].
      { destruct H1 as [(_ & m & _ & K)|[(-> & m & -> & K)|(_ & u & v & _ & Nuv & K)]].
        - destruct (K c Hc) as (a & K1). rewrite Ec in K1. injection K1 as ->. discriminate.
        - destruct (K c Hc) as (ed & K1 & K2). rewrite Ec in K1. injection K1 as <-. destruct (joins_self_ends K2) as (K3 & _).
          split; [reflexivity|]. f_equal. congruence.
        - exfalso. destruct (K c Hc) as (ed & K1 & K2). rewrite Ec in K1. injection K1 as <-. unfold joins in K2. rewrite E2c, Enc in K2.
          apply andb_true_iff in K2. destruct K2 as [_ K2]. apply orb_true_iff in K2.
          destruct K2 as [K2|K2]; apply andb_true_iff in K2; destruct K2 as [Q1 Q2]; apply Nat.eqb_eq in Q1, Q2; congruence. }
      clear H1. pose proof (fl_wf F) as W1. destruct (fl_data F) as (Mo & FD). destruct (fl_nodes F (n := n) (or_introl eq_refl)) as (nd & nd1 & Hn & Hn1 & E1).
      cbn [repeat] in E1. destruct (fl_ends F) as (edf & Ef & Pf). cbn [Nat.eqb] in Pf.
      assert (slot s1 (n, length (kept_of es (n_edges nd))) = Some f) as Sf.
      { apply (slot_intro Hn1). rewrite E1, nth_error_app2, Nat.sub_diag by lia. reflexivity. }
      assert (exists a2, e_n1 edf = n /\ e_2 edf = Some (n, a2)) as (a2 & Enf & E2f).
      { unfold ends in Pf. destruct (e_2 edf) as [[m a2]|]; cbn [map fst] in Pf.
        - apply perm_two in Pf. exists a2. destruct Pf as [K|K]; injection K as -> ->; auto.
        - apply Permutation_length in Pf. discriminate. }
      assert (joins edf n n = true) as Jf.
      { destruct (wf_slot W1 Sf) as (ed' & K1 & K2 & _). rewrite Ef in K1. injection K1 as <-.
        unfold joins. rewrite K2, E2f, Enf, !Nat.eqb_refl. reflexivity. }
      destruct (trace_step W1 (ex_intro _ _ Sf) Ef Enf E2f (Hct s1 edf Ef Jf H)) as (C & nd1' & nd' & K1 & HN & EN).
      rewrite Hn1 in K1. injection K1 as <-.
      assert (forall x, In x (kept_of es (n_edges nd)) -> x < s_ne s) as Lk.
      { intros x Hx. apply filter_In in Hx. apply (node_edge_lt W Hn (proj1 Hx)). }
      assert (n_edges nd' = kept_of es (n_edges nd)) as EN'.
      { rewrite EN, E1, kept_app. rewrite kept_none.
        - cbn. rewrite Nat.eqb_refl. cbn. apply app_nil_r.
        - intros x Hx [<-|[]]. pose proof (Lk f Hx). pose proof (fl_f F). lia. }
      assert (N <> n) as NN by (intros ->; pose proof (ct_new C); congruence).
      assert (forall m, m <> n -> s_nodes s1 m = s_nodes s m) as Oth by (intros m Hm; apply (fd_others FD); intros [K|[]]; congruence).
      split; [|exists nd, nd'; auto]. split.
      + apply (ct_wf C).
      + rewrite <- Oth by exact NN. apply (ct_new C).
      + rewrite <- (fl_nn F). apply (ct_next C).
      + apply (ct_node C).
      + intros m Hm HmN. rewrite (ct_others C) by assumption. apply Oth. intros ->. apply Hm. left. reflexivity.
      + intros S a HS HNS Ho. assert (incl [n] ([n] ++ S)) as Hi by (intros x Hx; apply in_or_app; auto).
        rewrite (fuse_value W W1 FD ltac:(lia) eq_refl HS Hi (or_introl Ho)).
        apply (ct_value C HS HNS). apply (fuse_open_ok a W W1 FD HS Hi). exact Ho.
      + exists es. cbn [net_of map]. rewrite !net_labels_cons, (fac_node Hn), (fac_node HN). cbn [snd net_labels flat_map]. rewrite !app_nil_r, EN'.
        pose proof (fd_lab FD) as L1. pose proof (fd_lab' FD) as L2. cbn [net_of map repeat concat] in L1, L2.
        rewrite net_labels_cons, (fac_node Hn) in L1. rewrite net_labels_cons, (fac_node Hn1), E1 in L2. cbn [snd net_labels flat_map] in L1, L2.
        rewrite !app_nil_r in L1. rewrite app_nil_r in L2. etransitivity; [exact L1|]. rewrite <- app_assoc. do 2 apply Permutation_app_head.
        rewrite Permutation_app_comm in L2. symmetry. exact (Permutation_app_inv_l [f; f] _ _ L2).
      + pose proof (ct_fits C) as Ft. unfold fits in *. rewrite Ft. apply map_ext_in. intros x Hx. rewrite (fac_node HN) in Hx. cbn [snd] in Hx.
        rewrite EN' in Hx. assert (In x (n_edges nd1)) as Hx1 by (rewrite E1; apply in_or_app; auto).
        apply In_nth_error in Hx1. destruct Hx1 as [k Hk]. rewrite (fd_edim W W1 FD (slot_intro Hn1 Hk)). apply upd_other.
        intros ->. pose proof (Lk f Hx). pose proof (fl_f F). lia.
  Qed.

  (** contract_between on a node and itself: all its trace edges *)
  Theorem between_self n ao order names s s' N : wf s -> contract_between iter n n ao order names s = (s', Some N) ->
    contracted s s' [n] N /\
    exists d nd', s_nodes s n = Some d /\ s_nodes s' N = Some nd' /\ shared_list s n n <> [] /\
      Permutation (n_edges nd') (kept_of (shared_list s n n) (n_edges d)) /\
      (order = [] -> n_edges nd' = kept_of (shared_list s n n) (n_edges d)) /\
      (order <> [] -> n_edges nd' = order) /\ (forall l, names = Some l -> n_names nd' = l).
  Proof.
    intros W H. unfold contract_between in H.
    apply bind_inv in H. destruct H as (d1 & s1 & H1 & H). apply get_node_inv in H1. destruct H1 as [-> Hn1].
    apply bind_inv in H. destruct H as (d2 & s1 & H1 & H). apply get_node_inv in H1. destruct H1 as [-> _].
    apply bind_inv in H. destruct H as (shared & s1 & H1 & H).
    unfold get_shared_edges in H1. apply bind_inv in H1. destruct H1 as (d0 & s0 & H0 & H1). apply get_node_inv in H0. destruct H0 as [-> _].
    injection H1 as <- <-. set (cut := iter (shared_list s n n)) in *.
    assert (Permutation cut (shared_list s n n)) as Pc by apply iter_perm.
    assert (forall e, In e cut <-> In e (shared_list s n n)) as Ic by (intros e; split; apply Permutation_in; [|symmetry]; exact Pc).
    assert (forall es, kept_of cut es = kept_of (shared_list s n n) es) as Kc.
    { intros es. unfold kept_of. apply filter_ext. intros e. f_equal. apply eq_true_iff_eq. rewrite !mem_In. apply Ic. }
    rewrite Nat.eqb_refl in H. apply bind_inv in H. destruct H as (N' & s1 & H1 & H).
    assert (cut <> [] /\ bind (flatten_edges iter cut) (fun e => contract e None) s = (s1, Some N')) as [Hne H1'].
    { destruct cut as [|c0 cr]; [discriminate|]. split; [discriminate|exact H1]. }
    clear H1. assert (shared_list s n n <> []) as Hne' by (intros K; rewrite K in Pc; apply Permutation_sym, Permutation_nil in Pc; contradiction).
    destruct (@trace_all n cut s s1 N' W Hne) as (C & nd & nd1 & K1 & HN & EN); [|exact H1'|].
    { intros c Hc. apply Ic in Hc. apply (shared_spec n c Hn1) in Hc. destruct Hc as (Hin & ed & E & J). split; [|eauto].
      apply In_nth_error in Hin. destruct Hin as [k Hk]. exists (n, k). apply (slot_intro Hn1 Hk). }
    rewrite Hn1 in K1. injection K1 as <-.
    assert (~ In N' [n]) as HN' by (intros [<-|[]]; pose proof (ct_new C); congruence).
    destruct (between_finish W C HN' H) as (-> & C' & nd1' & nd' & K1 & K2 & K3 & K4 & K5).
    split; [exact C'|]. rewrite HN in K1. injection K1 as <-.
    exists d1, nd'. rewrite <- !Kc. repeat (split; [assumption|]). destruct order as [|o0 or].
    - destruct (K3 eq_refl) as [-> _]. repeat split; auto; try congruence. rewrite EN. reflexivity.
    - destruct (K4 ltac:(discriminate)) as [-> Po]. split; [rewrite Po, EN; reflexivity|]. split; [discriminate|]. auto.
  Qed.

  (** contract: trace or pair *)
  Theorem contract_step e names s s' N : wf s -> (exists p, slot s p = Some e) -> contract e names s = (s', Some N) ->
    exists ed q, s_edges s e = Some ed /\ e_2 ed = Some q /\
      contracted s s' (nodup Nat.eq_dec [e_n1 ed; fst q]) N /\
      exists nd', s_nodes s' N = Some nd' /\
        n_edges nd' = flat_map (fun n => match s_nodes s n with Some nd => kept_of [e] (n_edges nd) | None => [] end) (nodup Nat.eq_dec [e_n1 ed; fst q]).
  Proof.
    intros W Hp H. pose proof H as H0. unfold contract in H0. apply bind_inv in H0. destruct H0 as (ed & s1 & H1 & H0).
    apply get_edge_inv in H1. destruct H1 as (-> & E & D). destruct (e_2 ed) as [[m a2]|] eqn:E2; [|discriminate].
    exists ed, (m, a2). split; [exact E|]. split; [exact E2|]. cbn [fst].
    destruct (Nat.eqb_spec (e_n1 ed) m) as [Em|Nm].
    - rewrite <- Em in *. destruct (trace_step W Hp E eq_refl E2 H0) as (C & nd & nd' & K1 & K2 & K3).
      assert (nodup Nat.eq_dec [e_n1 ed; e_n1 ed] = [e_n1 ed]) as ->.
      { cbn [nodup]. destruct (in_dec Nat.eq_dec (e_n1 ed) [e_n1 ed]) as [|K]; [|exfalso; apply K; left; reflexivity]. reflexivity. }
      split; [exact C|]. exists nd'. split; [exact K2|]. cbn [flat_map]. rewrite K1, app_nil_r. exact K3.
    - destruct (contract_pair W Hp E E2 Nm H) as (C & d1 & d2 & nms & K1 & K2 & K3).
      assert (nodup Nat.eq_dec [e_n1 ed; m] = [e_n1 ed; m]) as ->.
      { apply nodup_fixed_point. constructor; [intros [K|[]]; congruence|]. repeat constructor. intros []. }
      split; [exact C|]. eexists. split; [exact K3|]. cbn [flat_map n_edges]. rewrite K1, K2, app_nil_r. reflexivity.
  Qed.

  Theorem between_any n1 n2 ao order names s s' N : wf s -> contract_between iter n1 n2 ao order names s = (s', Some N) ->
    contracted s s' (nodup Nat.eq_dec [n1; n2]) N /\
    exists nd', s_nodes s' N = Some nd' /\ (forall l, names = Some l -> n_names nd' = l) /\
      let kept := flat_map (fun n => match s_nodes s n with Some nd => kept_of (shared_list s n1 n2) (n_edges nd) | None => [] end) (nodup Nat.eq_dec [n1; n2]) in
      Permutation (n_edges nd') kept /\ (order = [] -> n_edges nd' = kept) /\ (order <> [] -> n_edges nd' = order).
  Proof.
    intros W H. destruct (Nat.eq_dec n1 n2) as [<-|Hne].
    - destruct (between_self W H) as (C & d & nd' & K1 & K2 & _ & K3 & K4 & K5 & K6).
      assert (nodup Nat.eq_dec [n1; n1] = [n1]) as ->.
      { cbn [nodup]. destruct (in_dec Nat.eq_dec n1 [n1]) as [|K]; [|exfalso; apply K; left; reflexivity]. reflexivity. }
      split; [exact C|]. exists nd'. cbn zeta. cbn [flat_map]. rewrite K1, app_nil_r. auto.
    - destruct (between_step iter_perm W Hne H) as (C & d1 & d2 & nd' & K1 & K2 & K3 & K4 & K5 & K6 & K7).
      assert (nodup Nat.eq_dec [n1; n2] = [n1; n2]) as ->.
      { apply nodup_fixed_point. constructor; [intros [K|[]]; congruence|]. repeat constructor. intros []. }
      split; [exact C|]. exists nd'. cbn zeta. cbn [flat_map]. rewrite K1, K2, app_nil_r. auto.
  Qed.
End GT.
