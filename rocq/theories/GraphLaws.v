(** * GraphLaws: laws of flatten_edges, split_edge, connect, disconnect in terms of network values *)
From Verif Require Import Prelude Algebra Tensor TensorFacts Einsum EinsumFacts NetworkFacts Graph GraphBase GraphContract GraphOps GraphValue GraphOuter GraphConnect GraphJoin GraphBetween GraphRetail GraphFuse GraphFlatten GraphTrace GraphSplit GraphProg GraphSched.
Set Implicit Arguments.
Unset Strict Implicit.

Section GL.
  Context {R : csr}.
  Notation st := (@st R).
  Notation M := (@M R).
  Notation node := (@node R).
  Implicit Types (s : st) (e : eid).
  Notation cnt := (count_occ Nat.eq_dec).
  Variable iter : list nat -> list nat.
  Hypothesis iter_perm : forall l, Permutation (iter l) l.

  Lemma joins_both s u v c ed : wf s -> (exists p, slot s p = Some c) -> s_edges s c = Some ed -> joins ed u v = true ->
    (exists i, slot s (u, i) = Some c) /\ (exists j, slot s (v, j) = Some c).
  Proof.
    intros W (p & Hp) He Hj. pose proof (ends_live W Hp He) as L. unfold joins in Hj. apply andb_true_iff in Hj. destruct Hj as [_ Hj].
    destruct ed as [n1 a1 [[m a2]|] ds]; cbn [e_2 e_n1] in *; [|discriminate]. unfold ends in L. cbn [e_n1 e_a1 e_2] in L.
    assert (slot s (n1, a1) = Some c) as L1 by (apply L; cbn; auto). assert (slot s (m, a2) = Some c) as L2 by (apply L; cbn; auto).
    apply orb_true_iff in Hj. destruct Hj as [Hj|Hj]; apply andb_true_iff in Hj; destruct Hj as [K1 K2]; apply Nat.eqb_eq in K1, K2; subst; eauto.
  Qed.

  Theorem flatten_shared_value es s s' f S a : wf s -> (forall c, In c es -> exists p, slot s p = Some c) ->
    (forall c ed, In c es -> s_edges s c = Some ed -> e_2 ed <> None) ->
    flatten_edges iter es s = (s', Some f) ->
    NoDup S -> (forall c p, In c es -> slot s p = Some c -> In (fst p) S) -> open_ok s S a ->
    netval s S a = netval s' S a.
  Proof.
    intros W Hl Hnd H NS Hin Ho. destruct (flatten_edges_post iter_perm W Hl H) as [[_ ->]|(P & mult & F & Hc)]; [reflexivity|].
    destruct (fl_data F) as (Mo & FD). destruct es as [|c0 er]; [discriminate H|].
    assert (In c0 (c0 :: er)) as Hc0 by (left; reflexivity).
    assert (mult = 2 /\ incl P S) as [-> Hi].
    { destruct Hc as [(-> & n & -> & Hd)|[(-> & n & -> & Hd)|(-> & u & v & -> & Hne & Hd)]].
      - exfalso. destruct (Hd c0 Hc0) as (a0 & E). apply (Hnd c0 _ Hc0 E). reflexivity.
      - split; [reflexivity|]. destruct (Hd c0 Hc0) as (ed & E & J). destruct (joins_both W (Hl c0 Hc0) E J) as [(i & K) _]. intros x [<-|[]]. apply (Hin c0 _ Hc0 K).
      - split; [reflexivity|]. destruct (Hd c0 Hc0) as (ed & E & J). destruct (joins_both W (Hl c0 Hc0) E J) as [(i & K) (j & K')].
        intros x [<-|[<-|[]]]; [apply (Hin c0 _ Hc0 K)|apply (Hin c0 _ Hc0 K')]. }
    apply (@fuse_value _ s s' P (c0 :: er) f Mo 2 W (fl_wf F) FD); auto.
  Qed.

  Theorem flatten_dangling_value es s s' f S a : wf s -> (forall c, In c es -> exists p, slot s p = Some c) ->
    (forall c ed, In c es -> s_edges s c = Some ed -> e_2 ed = None) -> 2 <= length es ->
    flatten_edges iter es s = (s', Some f) ->
    NoDup S -> (forall c p, In c es -> slot s p = Some c -> In (fst p) S) -> open_ok s' S a -> a f < nprod (map (edim s) es) ->
    netval s' S a = netval s S (binds Nat.eq_dec a es (unravel (map (edim s) es) (a f))).
  Proof.
    intros W Hl Hnd Hlen H NS Hin Ho Haf. destruct (flatten_edges_post iter_perm W Hl H) as [[-> _]|(P & mult & F & Hc)]; [cbn in Hlen; lia|].
    destruct (fl_data F) as (Mo & FD). destruct es as [|c0 er]; [discriminate H|].
    assert (In c0 (c0 :: er)) as Hc0 by (left; reflexivity).
    assert (mult = 1 /\ incl P S) as [-> Hi].
    { destruct Hc as [(-> & n & -> & Hd)|[(-> & n & -> & Hd)|(-> & u & v & -> & Hne & Hd)]].
      - split; [reflexivity|]. destruct (Hd c0 Hc0) as (a0 & E). destruct (Hl c0 Hc0) as (p & Hp). pose proof (dangling_slot W Hp E eq_refl) as ->.
        intros x [<-|[]]. apply (Hin c0 _ Hc0 Hp).
      - exfalso. destruct (Hd c0 Hc0) as (ed & E & J). pose proof (Hnd c0 _ Hc0 E) as K. unfold joins in J. rewrite K, andb_false_r in J. discriminate.
      - exfalso. destruct (Hd c0 Hc0) as (ed & E & J). pose proof (Hnd c0 _ Hc0 E) as K. unfold joins in J. rewrite K, andb_false_r in J. discriminate. }
    apply (@fuse_value_open _ s s' P (c0 :: er) f Mo 1 W (fl_wf F) FD); auto.
  Qed.

  (** shape of the result: the flattened edge has the product dimension, the remaining edges keep their order *)
  Theorem flatten_structure es s s' f : wf s -> (forall c, In c es -> exists p, slot s p = Some c) -> 2 <= length es ->
    flatten_edges iter es s = (s', Some f) ->
    wf s' /\ s_ne s <= f /\ edim s' f = nprod (map (edim s) es) /\
    forall n nd, s_nodes s n = Some nd -> exists nd', s_nodes s' n = Some nd' /\
      ((forall c, In c es -> ~ In c (n_edges nd)) /\ nd' = nd \/
       exists k, 1 <= k <= 2 /\ (forall c, In c es -> In c (n_edges nd)) /\ n_edges nd' = kept_of es (n_edges nd) ++ repeat f k).
  Proof.
    intros W Hl Hlen H. destruct (flatten_edges_post iter_perm W Hl H) as [[-> _]|(P & mult & F & Hc)]; [cbn in Hlen; lia|].
    destruct (fl_data F) as (Mo & FD). destruct es as [|c0 er]; [discriminate H|]. assert (In c0 (c0 :: er)) as Hc0 by (left; reflexivity).
    assert (exists n, In n P) as (n0 & Hn0).
    { destruct Hc as [(_ & n & -> & _)|[(_ & n & -> & _)|(_ & u & v & -> & _)]]; eexists; left; reflexivity. }
    split; [apply (fl_wf F)|]. split; [apply (fl_f F)|]. split.
    { apply (@fuse_edim _ s s' P (c0 :: er) f Mo mult W (fl_wf F) FD).
      destruct Hc as [(-> & _)|[(-> & _)|(-> & _)]]; lia. }
    intros n nd Hn. destruct (in_dec Nat.eq_dec n P) as [Hin|Hout].
    - destruct (fl_nodes F Hin) as (nd1 & nd' & K1 & K2 & K3). rewrite Hn in K1. injection K1 as <-. exists nd'. split; [exact K2|]. right.
      exists (match P with [_] => mult | _ => 1 end). split; [destruct Hc as [(-> & m & -> & _)|[(-> & m & -> & _)|(-> & u & v & -> & _)]]; lia|]. split.
      + intros c Hcin. destruct Hc as [(-> & m & -> & Hd)|[(-> & m & -> & Hd)|(-> & u & v & -> & _ & Hd)]]; destruct (Hd c Hcin) as (x & E).
        * destruct (Hl c Hcin) as (p & Hp). pose proof (dangling_slot W Hp E eq_refl) as ->. destruct Hin as [<-|[]]. apply slot_node in Hp. cbn in Hp. destruct Hp as (d & Ed & Ek). rewrite Hn in Ed. injection Ed as <-. apply (nth_error_In _ _ Ek).
        * destruct E as [E J]. destruct (joins_both W (Hl c Hcin) E J) as [(i & Hp) _]. destruct Hin as [<-|[]]. apply slot_node in Hp. destruct Hp as (d & Ed & Ek). rewrite Hn in Ed. injection Ed as <-. apply (nth_error_In _ _ Ek).
        * destruct E as [E J]. destruct (joins_both W (Hl c Hcin) E J) as [(i & Hp) (j & Hp')]. destruct Hin as [<-|[<-|[]]];
            [apply slot_node in Hp; destruct Hp as (d & Ed & Ek)|apply slot_node in Hp'; destruct Hp' as (d & Ed & Ek)]; rewrite Hn in Ed; injection Ed as <-; apply (nth_error_In _ _ Ek).
      + rewrite K3. f_equal. destruct Hc as [(-> & m & -> & _)|[(-> & m & -> & _)|(-> & u & v & -> & _)]]; reflexivity.
    - exists nd. split; [rewrite (fd_others FD Hout); exact Hn|]. left. split; [|reflexivity]. intros c Hcin K.
      apply In_nth_error in K. destruct K as (k & Hk). apply Hout. apply (fd_only FD (p := (n, k)) Hcin). apply (slot_intro Hn Hk).
  Qed.

  Lemma split_P_slots e sh s s' gs P mult : wf s -> (exists p, slot s p = Some e) -> split_post s s' e gs sh P mult ->
       ((mult = 1 /\ exists n a, P = [n] /\ s_edges s e = Some (Edge n a None false)) \/
        (mult = 2 /\ exists ed, s_edges s e = Some ed /\
           ((exists n, P = [n] /\ joins ed n n = true) \/ (exists u v, P = [u; v] /\ u <> v /\ joins ed u v = true)))) ->
    forall n, In n P <-> exists k, slot s (n, k) = Some e.
  Proof.
    intros W Hl F Hc n. split.
    - intros Hn. destruct Hc as [(-> & m & a & -> & E)|(-> & ed & E & [(m & -> & J)|(u & v & -> & _ & J)])].
      + destruct Hl as (p & Hp). pose proof (dangling_slot W Hp E eq_refl) as ->. destruct Hn as [<-|[]]. eauto.
      + destruct (joins_both W Hl E J) as [K _]. destruct Hn as [<-|[]]. exact K.
      + destruct (joins_both W Hl E J) as [K K']. destruct Hn as [<-|[<-|[]]]; assumption.
    - intros (k & Hk). destruct Hc as [(-> & m & a & -> & E)|(-> & ed & E & [(m & -> & J)|(u & v & -> & _ & J)])].
      + pose proof (dangling_slot W Hk E eq_refl) as K. injection K as -> _. left. reflexivity.
      + destruct (joins_ends J (live_in_ends W Hk E)) as [<-|<-]; left; reflexivity.
      + destruct (joins_ends J (live_in_ends W Hk E)) as [<-|<-]; cbn; auto.
  Qed.

  Theorem split_shared_value e sh nms s s' gs S a ed : wf s -> (exists p, slot s p = Some e) -> s_edges s e = Some ed -> e_2 ed <> None ->
    split_edge iter e sh nms s = (s', Some gs) ->
    NoDup S -> (forall p, slot s p = Some e -> In (fst p) S) -> open_ok s S a ->
    netval s S a = netval s' S a.
  Proof.
    intros W Hl He Hnd H NS Hin Ho. destruct (split_edge_post iter_perm W Hl H) as (Hsh & [(-> & -> & _)|(P & mult & F & Hc)]); [reflexivity|].
    pose proof (split_P_slots W Hl F Hc) as HP. destruct (sp_data F) as (Mo & FD).
    assert (mult = 2) as ->. { destruct Hc as [(_ & n & a' & _ & E)|[-> _]]; [|reflexivity]. exfalso. rewrite He in E. injection E as ->. apply Hnd. reflexivity. }
    symmetry. apply (@fuse_value _ s' s P gs e Mo 2 (sp_wf F) W FD); auto. intros n Hn. apply HP in Hn. destruct Hn as (k & Hk). apply (Hin _ Hk).
  Qed.

  Theorem split_dangling_value e sh nms s s' gs S a ed : wf s -> (exists p, slot s p = Some e) -> s_edges s e = Some ed -> e_2 ed = None -> length sh <> 1 ->
    split_edge iter e sh nms s = (s', Some gs) ->
    NoDup S -> (forall p, slot s p = Some e -> In (fst p) S) -> open_ok s S a -> a e < edim s e ->
    netval s S a = netval s' S (binds Nat.eq_dec a gs (unravel sh (a e))).
  Proof.
    intros W Hl He Hnd Hlen H NS Hin Ho Hae. destruct (split_edge_post iter_perm W Hl H) as (Hsh & [(-> & -> & K)|(P & mult & F & Hc)]); [contradiction|].
    pose proof (split_P_slots W Hl F Hc) as HP. destruct (sp_data F) as (Mo & FD).
    assert (mult = 1) as ->.
    { destruct Hc as [[-> _]|(_ & ed' & E & Hc)]; [reflexivity|]. exfalso. rewrite He in E. injection E as <-.
      destruct Hc as [(n & _ & J)|(u & v & _ & _ & J)]; unfold joins in J; rewrite Hnd, andb_false_r in J; discriminate. }
    pose proof (sp_dims F) as Dg. rewrite <- Dg.
    apply (@fuse_value_open _ s' s P gs e Mo 1 (sp_wf F) W FD); auto.
    - intros n Hn. apply HP in Hn. destruct Hn as (k & Hk). apply (Hin _ Hk).
    - rewrite Dg, Hsh. exact Hae.
  Qed.

  Theorem split_structure e sh nms s s' gs : wf s -> (exists p, slot s p = Some e) -> length sh <> 1 ->
    split_edge iter e sh nms s = (s', Some gs) ->
    wf s' /\ nprod sh = edim s e /\ NoDup gs /\ (forall g, In g gs -> s_ne s <= g) /\ map (edim s') gs = sh /\
    forall n nd, s_nodes s n = Some nd -> exists nd', s_nodes s' n = Some nd' /\
      (~ In e (n_edges nd) /\ nd' = nd \/
       exists k, 1 <= k <= 2 /\ In e (n_edges nd) /\ n_edges nd' = kept_of [e] (n_edges nd) ++ concat (repeat gs k)).
  Proof.
    intros W Hl Hlen H. destruct (split_edge_post iter_perm W Hl H) as (Hsh & [(-> & -> & K)|(P & mult & F & Hc)]); [contradiction|].
    pose proof (split_P_slots W Hl F Hc) as HP. destruct (sp_data F) as (Mo & FD).
    split; [apply (sp_wf F)|]. split; [exact Hsh|]. split; [apply (sp_NoDup F)|]. split; [apply (sp_fresh F)|]. split; [apply (sp_dims F)|].
    intros n nd Hn. destruct (in_dec Nat.eq_dec n P) as [Hin|Hout].
    - destruct (sp_nodes F Hin) as (nd1 & nd' & K1 & K2 & K3). rewrite Hn in K1. injection K1 as <-. exists nd'. split; [exact K2|]. right.
      exists (match P with [_] => mult | _ => 1 end). split; [|split].
      + destruct Hc as [(-> & m & a & -> & E)|(-> & ed & E & [(m & -> & J)|(u & v & -> & _ & J)])]; lia.
      + apply HP in Hin. destruct Hin as (k & Hk). apply slot_node in Hk. destruct Hk as (d & Ed & Ek). rewrite Hn in Ed. injection Ed as <-. apply (nth_error_In _ _ Ek).
      + rewrite K3. f_equal. destruct Hc as [(-> & m & a & -> & E)|(-> & ed & E & [(m & -> & J)|(u & v & -> & _ & J)])]; try reflexivity. cbn. rewrite app_nil_r. reflexivity.
    - exists nd. split; [rewrite <- (fd_others FD Hout); exact Hn|]. left. split; [|reflexivity]. intros K.
      apply In_nth_error in K. destruct K as (k & Hk). apply Hout. apply HP. exists k. apply (slot_intro Hn Hk).
  Qed.


  Lemma fuse_live_back s s' P ES f Mo mult x n k : wf s -> wf s' -> fuse_data s s' P ES f Mo mult -> x <> f -> slot s' (n, k) = Some x ->
    (exists m j, slot s (m, j) = Some x) /\ edim s' x = edim s x.
  Proof.
    intros W W' FD Hx Hs. split.
    - destruct (in_dec Nat.eq_dec n P) as [Hp|Hp].
      + assert (In x (net_labels (net_of s' P))) as K. { apply (In_net_labels P x W'). exists n, k. auto. }
        apply (Permutation_in _ (fd_lab' FD)) in K. apply in_app_or in K. destruct K as [K|K]; [apply repeat_spec in K; contradiction|].
        assert (In x (net_labels (net_of s P))) as K2. { apply (Permutation_in _ (Permutation_sym (fd_lab FD))). apply in_or_app. right. exact K. }
        apply (In_net_labels P x W) in K2. destruct K2 as (m & j & _ & K2). eauto.
      + exists n, k. unfold slot in *. cbn in *. rewrite <- (fd_others FD Hp). exact Hs.
    - rewrite (fd_edim W W' FD Hs). apply upd_other. exact Hx.
  Qed.

  Lemma fuse_M_live s s' P ES f Mo mult x : wf s -> wf s' -> fuse_data s s' P ES f Mo mult -> In x Mo ->
    (exists m j, slot s (m, j) = Some x) /\ (exists m j, slot s' (m, j) = Some x) /\ x <> f.
  Proof.
    intros W W' FD Hx.
    assert (In x (net_labels (net_of s P))) as K2. { apply (Permutation_in _ (Permutation_sym (fd_lab FD))). apply in_or_app. right. exact Hx. }
    assert (In x (net_labels (net_of s' P))) as K. { apply (Permutation_in _ (Permutation_sym (fd_lab' FD))). apply in_or_app. right. exact Hx. }
    apply (In_net_labels P x W) in K2. destruct K2 as (m & j & _ & K2). apply (In_net_labels P x W') in K. destruct K as (m' & j' & _ & K).
    split; [eauto|]. split; [eauto|]. intros ->. apply (fd_fM FD Hx).
  Qed.

  (** flatten, then split with the original dimensions: every entry of every node is recovered;
      the i-th new edge plays the role of the i-th flattened edge *)
  Theorem flatten_split es s s1 f nms s2 gs n nd nd2 b : wf s -> (forall c, In c es -> exists p, slot s p = Some c) -> 2 <= length es ->
    flatten_edges iter es s = (s1, Some f) ->
    split_edge iter f (map (edim s) es) nms s1 = (s2, Some gs) ->
    s_nodes s n = Some nd -> s_nodes s2 n = Some nd2 ->
    (forall p e, slot s p = Some e -> b e < edim s e) ->
    (nd2 = nd /\ (forall c, In c es -> ~ In c (n_edges nd)) \/
     exists k, 1 <= k <= 2 /\ (forall c, In c es -> In c (n_edges nd)) /\ n_edges nd2 = kept_of es (n_edges nd) ++ concat (repeat gs k)) /\
    elt (n_t nd2) (map (binds Nat.eq_dec b gs (map b es)) (n_edges nd2)) = elt (n_t nd) (map b (n_edges nd)).
  Proof.
    intros W Hl Hlen H1 H2 Hn Hn2 Hb.
    destruct (flatten_structure W Hl Hlen H1) as (W1 & Hf & Df & Str1).
    assert (exists p, slot s1 p = Some f) as Lf.
    { destruct es as [|c er]; [cbn in Hlen; lia|]. destruct (Hl c (or_introl eq_refl)) as ([m k] & Hp). apply slot_node in Hp. cbn in Hp. destruct Hp as (d & Ed & Ek).
      destruct (Str1 m d Ed) as (d' & Ed' & [(K & _)|(k' & Hk' & _ & K)]); [exfalso; apply (K c (or_introl eq_refl)), (nth_error_In _ _ Ek)|].
      assert (In f (n_edges d')) as Kf. { rewrite K. apply in_or_app. right. destruct k'; [lia|left; reflexivity]. }
      apply In_nth_error in Kf. destruct Kf as (j & Hj). exists (m, j). apply (slot_intro Ed' Hj). }
    assert (length (map (edim s) es) <> 1) as Hlen2 by (rewrite map_length; lia).
    destruct (split_structure W1 Lf Hlen2 H2) as (W2 & Hp & Ng & Fg & Dg & Str2).
    destruct (flatten_edges_post iter_perm W Hl H1) as [[K _]|(P & mult & F & Hc)]; [exfalso; rewrite K in Hlen; cbn in Hlen; lia|].
    destruct (split_edge_post iter_perm W1 Lf H2) as (_ & [(_ & _ & K)|(P2 & mult2 & F2 & Hc2)]); [contradiction|].
    pose proof (split_P_slots W1 Lf F2 Hc2) as HP2. destruct (fl_data F) as (Mo & FD). destruct (sp_data F2) as (Mo2 & FD2).
    assert (forall p e, slot s p = Some e -> e < s_ne s) as Lt by (intros p e K; apply (slot_lt W K)).
    assert (s_ne s <= s_ne s1) as Lne. { destruct Lf as (p & Lf). pose proof (proj2 (slot_lt W1 Lf)). lia. }
    assert (forall g, In g gs -> s_ne s <= g) as Fg' by (intros g Hg; specialize (Fg g Hg); lia).
    destruct (Str1 n nd Hn) as (nd1 & Hn1 & C1). destruct (Str2 n nd1 Hn1) as (nd2' & Hn2' & C2). rewrite Hn2 in Hn2'. injection Hn2' as <-.
    assert (forall x, In x (n_edges nd) -> x < s_ne s) as Le. { intros x Hx. apply In_nth_error in Hx. destruct Hx as (k & Hk). apply (Lt (n, k)), (slot_intro Hn Hk). }
    destruct C1 as [(C1 & ->)|(k1 & Hk1 & C1 & E1)].
    - destruct C2 as [(C2 & ->)|(k2 & Hk2 & C2 & E2)].
      + split; [left; auto|]. f_equal. apply map_binds_other. intros x Hx Hg. specialize (Fg' x Hg). specialize (Le x Hx). lia.
      + exfalso. specialize (Le f C2). lia.
    - assert (In f (n_edges nd1)) as Hf1. { rewrite E1. apply in_or_app. right. destruct k1; [lia|left; reflexivity]. }
      destruct C2 as [(C2 & _)|(k2 & Hk2 & C2 & E2)]; [contradiction|]. split.
      { right. exists k2. split; [exact Hk2|]. split; [exact C1|]. rewrite E2, E1. f_equal. rewrite kept_app.
        rewrite (@kept_none [f] (kept_of es (n_edges nd))).
        - replace (kept_of [f] (repeat f k1)) with (@nil eid); [apply app_nil_r|]. clear. unfold kept_of. induction k1 as [|k IH]; [reflexivity|]. cbn. rewrite Nat.eqb_refl. cbn. exact IH.
        - intros x Hx [<-|[]]. unfold kept_of in Hx. apply filter_In in Hx. destruct Hx as [Hx _]. specialize (Le f Hx). lia. }
      set (dims := map (edim s) es) in *. set (c := upd Nat.eq_dec b f (ravel dims (map b es))).
      assert (valid (map b es) dims) as Vd. { unfold dims. apply valid_map_asg. intros x Hx. destruct (Hl x Hx) as (p & K). apply (Hb p x K). }
      assert (c f = ravel dims (map b es)) as Cf by apply upd_same.
      assert (c f < nprod dims) as Cl by (rewrite Cf; apply ravel_lt, Vd).
      assert (In n P) as HnP.
      { assert (In (hd 0 es) es) as K by (destruct es; [cbn in Hlen; lia|left; reflexivity]).
        pose proof (C1 _ K) as K2. apply In_nth_error in K2. destruct K2 as (j & Hj). apply (fd_only FD (p := (n, j)) K (slot_intro Hn Hj)). }
      assert (In n P2) as HnP2. { apply HP2. apply In_nth_error in Hf1. destruct Hf1 as (k & Hk). exists k. apply (slot_intro Hn1 Hk). }
      assert (forall x, x <> f -> c x = b x) as Cx by (intros x Hx; apply upd_other; exact Hx).
      assert (fval (fac s1 n) c = fval (fac s n) b) as V1.
      { rewrite (fd_node FD (b := c) Cl); [|intros x Hx; destruct (fuse_M_live W W1 FD Hx) as ((m & j & K) & _ & Hxf); rewrite (Cx x Hxf); apply (Hb _ _ K)|exact HnP].
        rewrite Cf. fold dims. rewrite (unravel_ravel Vd), (fac_node Hn). unfold fval. cbn [fst snd]. f_equal. apply map_ext_in. intros x Hx.
        destruct (in_dec Nat.eq_dec x es) as [K|K].
        - assert (map (binds Nat.eq_dec c es (map b es)) es = map b es) as K2 by (rewrite map_binds; [reflexivity|apply (fl_NoDup F)|apply map_length]).
          apply (proj1 map_ext_in_iff K2 x K).
        - rewrite binds_other by exact K. apply Cx. intros ->. specialize (Le f Hx). lia. }
      assert (fval (fac s1 n) c = fval (fac s2 n) (binds Nat.eq_dec b gs (map b es))) as V2.
      { rewrite (fd_node FD2 (b := c)); [| rewrite Dg; exact Cl | | exact HnP2].
        - rewrite Dg, Cf, (unravel_ravel Vd), (fac_node Hn2). unfold fval. cbn [fst snd]. f_equal. apply map_ext_in. intros x Hx.
          apply binds_pointwise; [intros _; rewrite map_length, <- (map_length (edim s2) gs), Dg; unfold dims; rewrite map_length; reflexivity|].
          intros Hg. apply Cx. intros ->. apply Hg. exfalso. rewrite E2 in Hx. apply in_app_or in Hx. destruct Hx as [Hx|Hx]; [apply (kept_not_in Hx)|].
          apply Hg. apply in_concat in Hx. destruct Hx as (l & Hl1 & Hl2). apply repeat_spec in Hl1. subst l. exact Hl2.
        - intros x Hx. destruct (fuse_M_live W2 W1 FD2 Hx) as (_ & (m & j & K) & Hxf).
          rewrite (Cx x Hxf). destruct (fuse_live_back W2 W1 FD2 Hxf K) as (_ & <-). destruct (fuse_live_back W W1 FD Hxf K) as ((m' & j' & K') & ->). apply (Hb _ _ K'). }
      rewrite V2, (fac_node Hn2), (fac_node Hn) in V1. exact V1.
  Qed.

  (** ** connect and disconnect *)
  Lemma get_edge_slot s p e : wf s -> slot s p = Some e -> exists ed, get_edge e s = (s, Some ed) /\ s_edges s e = Some ed /\ e_dis ed = false.
  Proof.
    intros W Hp. destruct (wf_slot W Hp) as (ed & E & D & _). exists ed. unfold get_edge. rewrite E, D. auto.
  Qed.

  Lemma edge_dim_slot s p e : wf s -> slot s p = Some e -> edge_dim e s = (s, dimat s p) /\ dimat s p <> None.
  Proof.
    intros W Hp. destruct (wf_slot W Hp) as (ed & E & D & I & N & K). unfold edge_dim, bind. unfold get_edge. rewrite E, D.
    destruct (K (fun x => x) (e_n1 ed, e_a1 ed) (or_introl eq_refl)) as [K1 K2]. pose proof (slot_node K1) as (nd & Hn & Hk). cbn in Hn, Hk.
    unfold get_node. rewrite Hn. rewrite <- K2. unfold dimat. cbn. rewrite Hn.
    destruct (nth_error (shape (n_t nd)) (e_a1 ed)) as [d|] eqn:Ed; [split; [reflexivity|discriminate]|].
    exfalso. apply nth_error_None in Ed. assert (e_a1 ed < length (n_edges nd)) by (apply nth_error_Some; congruence).
    pose proof (wf_rank W Hn). unfold rank in *. lia.
  Qed.

  Lemma add_edge_ok s n ax e old ed : (forall nd, s_nodes s n = Some nd -> length (n_edges nd) = rank (n_t nd)) ->
    slot s (n, ax) = Some old -> s_edges s old = Some ed -> exists s', add_edge n e ax true s = (s', Some tt).
  Proof.
    intros Hr Hs He. pose proof (slot_node Hs) as (nd & Hn & Hk). cbn in Hn, Hk. unfold add_edge, bind, get_node. rewrite Hn.
    assert (ax < length (n_edges nd)) as L by (apply nth_error_Some; congruence). rewrite (Hr nd Hn) in L.
    rewrite (proj2 (Nat.ltb_lt _ _) L). cbn [guard]. unfold ret. rewrite Hk, He, orb_true_r. cbn [guard]. unfold ret, set_node. eauto.
  Qed.

  (** connect succeeds exactly when both edges dangle, differ, and have equal dimensions *)
  Theorem connect_total s p1 p2 e1 e2 d1 d2 : wf s -> slot s p1 = Some e1 -> slot s p2 = Some e2 -> s_edges s e1 = Some d1 -> s_edges s e2 = Some d2 ->
    (exists s' e, connect e1 e2 s = (s', Some e)) <-> (e_2 d1 = None /\ e_2 d2 = None /\ p1 <> p2 /\ dimat s p1 = dimat s p2).
  Proof.
    intros W H1 H2 E1 E2. split.
    - intros (s' & e & H). destruct (connect_inv W (ex_intro _ _ H1) (ex_intro _ _ H2) H) as (q1 & q2 & C).
      pose proof (cp_ed1 C) as K1. pose proof (cp_ed2 C) as K2. rewrite E1 in K1. rewrite E2 in K2. injection K1 as ->. injection K2 as ->.
      pose proof (dangling_slot W H1 E1 eq_refl) as P1. pose proof (dangling_slot W H2 E2 eq_refl) as P2. cbn in P1, P2. rewrite <- surjective_pairing in P1, P2. subst q1 q2.
      split; [reflexivity|]. split; [reflexivity|]. split; [apply (cp_12 C)|apply (cp_dim C)].
    - intros (D1 & D2 & Hne & Hd). assert (e1 <> e2) as Hne2.
      { intros <-. apply Hne. rewrite (dangling_slot W H1 E1 D1), (dangling_slot W H2 E1 D1). reflexivity. }
      destruct (get_edge_slot W H1) as (x1 & G1 & X1 & Z1). rewrite E1 in X1. injection X1 as <-.
      destruct (get_edge_slot W H2) as (x2 & G2 & X2 & Z2). rewrite E2 in X2. injection X2 as <-.
      destruct (edge_dim_slot W H1) as [M1 N1]. destruct (edge_dim_slot W H2) as [M2 _].
      pose proof (dangling_slot W H1 E1 D1) as P1. pose proof (dangling_slot W H2 E2 D2) as P2.
      unfold connect. unfold bind at 1. rewrite G1. unfold bind at 1. rewrite G2. unfold is_dangling. rewrite D1, D2. cbn [andb].
      unfold bind at 1. cbn [guard ret]. unfold ret at 1. unfold bind at 1.
      destruct (Nat.eqb_spec e1 e2); [contradiction|]. cbn [negb guard]. unfold ret at 1. unfold bind at 1. rewrite M1.
      destruct (dimat s p1) as [d|]; [|contradiction]. unfold bind at 1. rewrite M2, <- Hd. unfold bind at 1. rewrite Nat.eqb_refl. cbn [guard]. unfold ret at 1.
      unfold bind at 1, alloc_edge at 1. set (s1 := St _ _ _ _).
      assert (s_nodes s1 = s_nodes s) as En by reflexivity. assert (forall p, slot s1 p = slot s p) as Es by reflexivity.
      assert (forall x, x < s_ne s -> s_edges s1 x = s_edges s x) as Ee by (intros x Hx; cbn; apply upd_other; lia).
      destruct (@add_edge_ok s1 (e_n1 d1) (e_a1 d1) (s_ne s) e1 d1) as (s2 & A1).
      { intros nd Hn. rewrite En in Hn. apply (wf_rank W Hn). }
      { rewrite Es, <- P1. exact H1. }
      { rewrite Ee; [exact E1|]. apply (slot_lt W H1). }
      unfold bind at 1. rewrite A1. destruct (add_edge_slot A1) as (S1 & S2 & S3 & S4 & S5 & _).
      destruct (@add_edge_ok s2 (e_n1 d2) (e_a1 d2) (s_ne s) e2 d2) as (s3 & A2).
      { intros nd Hn. specialize (S1 (e_n1 d2)). rewrite Hn, En in S1. destruct (s_nodes s (e_n1 d2)) as [b|] eqn:Eb; [|contradiction].
        destruct S1 as (-> & _ & ->). apply (wf_rank W Eb). }
      { rewrite S5, Es, <- P1, <- P2. destruct (slot_eqb_spec p2 p1); [congruence|]. exact H2. }
      { rewrite S2, Ee; [exact E2|]. apply (slot_lt W H2). }
      unfold bind at 1. rewrite A2. unfold ret. eauto.
  Qed.

  (** a rejected connect leaves the graph as it was *)
  Theorem connect_reject s s' p1 p2 e1 e2 : wf s -> slot s p1 = Some e1 -> slot s p2 = Some e2 -> connect e1 e2 s = (s', None) -> s' = s.
  Proof.
    intros W H1 H2 H. destruct (get_edge_slot W H1) as (d1 & G1 & E1 & Z1). destruct (get_edge_slot W H2) as (d2 & G2 & E2 & Z2).
    destruct (edge_dim_slot W H1) as [M1 N1]. destruct (edge_dim_slot W H2) as [M2 N2].
    pose proof (connect_total W H1 H2 E1 E2) as [_ T]. remember (connect e1 e2 s) as c eqn:Ec.
    assert (~ (e_2 d1 = None /\ e_2 d2 = None /\ p1 <> p2 /\ dimat s p1 = dimat s p2)) as T'.
    { intros K. destruct (T K) as (s'' & e & Q). rewrite Q in H. discriminate. }
    clear T. rewrite Ec in H. unfold connect in H. unfold bind at 1 in H. rewrite G1 in H. unfold bind at 1 in H. rewrite G2 in H.
    unfold is_dangling in H. destruct (e_2 d1) eqn:D1; [injection H as <-; reflexivity|]. destruct (e_2 d2) eqn:D2; [injection H as <-; reflexivity|].
    cbn [andb] in H. unfold bind at 1 in H. cbn [guard ret] in H. unfold ret at 1 in H. unfold bind at 1 in H.
    destruct (Nat.eqb_spec e1 e2) as [He|He]; [injection H as <-; reflexivity|]. cbn [negb guard] in H. unfold ret at 1 in H. unfold bind at 1 in H. rewrite M1 in H.
    destruct (dimat s p1) as [m1|] eqn:Q1; [|contradiction]. unfold bind at 1 in H. rewrite M2 in H. destruct (dimat s p2) as [m2|] eqn:Q2; [|contradiction].
    unfold bind at 1 in H. destruct (Nat.eqb_spec m1 m2) as [Hm|Hm]; [|injection H as <-; reflexivity].
    exfalso. apply T'. repeat split; [|congruence]. intros ->. rewrite H2 in H1. injection H1 as ->. contradiction.
  Qed.

  (** connect followed by disconnect of the new edge: the two slots dangle again, everything else is as before *)
  Theorem connect_disconnect s s1 s2 p1 p2 e1 e2 e f1 f2 : wf s -> slot s p1 = Some e1 -> slot s p2 = Some e2 ->
    connect e1 e2 s = (s1, Some e) -> disconnect e s1 = (s2, Some (f1, f2)) ->
    same_nodes s s2 /\ wf s2 /\ slot s2 p1 = Some f1 /\ slot s2 p2 = Some f2 /\ dangles s2 p1 /\ dangles s2 p2 /\
    (forall p, p <> p1 -> p <> p2 -> slot s2 p = slot s p) /\ (forall x, x < s_ne s -> s_edges s2 x = s_edges s x).
  Proof.
    intros W H1 H2 C D. destruct (connect_inv W (ex_intro _ _ H1) (ex_intro _ _ H2) C) as (q1 & q2 & CP). pose proof (connect_wf W CP) as W1.
    pose proof (dangling_slot W H1 (cp_ed1 CP) eq_refl) as P1. pose proof (dangling_slot W H2 (cp_ed2 CP) eq_refl) as P2. cbn in P1, P2. rewrite <- surjective_pairing in P1, P2. subst q1 q2.
    destruct (cp_12 CP) as [Hne Hp].
    assert (slot s1 p1 = Some e) as K1. { rewrite (cp_slot CP). destruct (slot_eqb_spec p1 p1); [|congruence]. reflexivity. }
    destruct (disconnect_inv W1 (ex_intro _ _ K1) D) as (r1 & r2 & DP).
    pose proof (dp_ed DP) as Ed. pose proof (cp_edge CP) as Ed'. rewrite Ed in Ed'. injection Ed' as R1 R2 R3.
    assert (r1 = p1) as -> by (destruct r1, p1; cbn in *; congruence). assert (r2 = p2) as -> by (destruct r2, p2; cbn in *; congruence).
    assert (slot s2 p1 = Some f1) as L1. { rewrite (dp_slot DP). destruct (slot_eqb_spec p1 p1); [reflexivity|congruence]. }
    assert (slot s2 p2 = Some f2) as L2. { rewrite (dp_slot DP). destruct (slot_eqb_spec p2 p1); [congruence|]. destruct (slot_eqb_spec p2 p2); [reflexivity|congruence]. }
    split; [apply (same_nodes_trans (cp_same CP) (dp_same DP))|]. split; [apply (disconnect_wf W1 DP)|]. split; [exact L1|]. split; [exact L2|].
    split; [exists f1; split; [exact L1|apply (dp_f1 DP)]|]. split; [exists f2; split; [exact L2|apply (dp_f2 DP)]|]. split.
    - intros p N1 N2. rewrite (dp_slot DP), (cp_slot CP). destruct (slot_eqb_spec p p1); [congruence|]. destruct (slot_eqb_spec p p2); [congruence|]. reflexivity.
    - intros x Hx. pose proof (cp_ne CP). destruct (dp_f DP). rewrite (dp_edges DP) by lia. apply (cp_edges CP). pose proof (cp_e CP). lia.
  Qed.

  Lemma wf_meaning s n nd k e : wf s -> s_nodes s n = Some nd -> nth_error (n_edges nd) k = Some e ->
    k < rank (n_t nd) /\ exists ed, s_edges s e = Some ed /\ e_dis ed = false /\ In (n, k) (ends ed) /\
      forall q, In q (ends ed) -> slot s q = Some e /\ dimat s q = dimat s (n, k).
  Proof.
    intros W Hn Hk. pose proof (slot_intro Hn Hk) as Hs. destruct (wf_slot W Hs) as (ed & E & D & I & N & K). split.
    - rewrite <- (wf_rank W Hn). apply nth_error_Some. congruence.
    - exists ed. repeat split; auto; apply K; auto.
  Qed.

  Lemma connect_effect s s' p1 p2 e1 e2 e : wf s -> slot s p1 = Some e1 -> slot s p2 = Some e2 -> connect e1 e2 s = (s', Some e) ->
    wf s' /\ same_nodes s s' /\ slot s' p1 = Some e /\ slot s' p2 = Some e /\
    (forall p, p <> p1 -> p <> p2 -> slot s' p = slot s p) /\
    (forall S a, NoDup S -> In (fst p1) S -> In (fst p2) S ->
       netval s' S a = nsum (edim s e1) (fun i => netval s S (upd Nat.eq_dec (upd Nat.eq_dec a e1 i) e2 i))).
  Proof.
    intros W H1 H2 C. destruct (connect_inv W (ex_intro _ _ H1) (ex_intro _ _ H2) C) as (q1 & q2 & CP). pose proof (connect_wf W CP) as W1.
    pose proof (dangling_slot W H1 (cp_ed1 CP) eq_refl) as P1. pose proof (dangling_slot W H2 (cp_ed2 CP) eq_refl) as P2. cbn in P1, P2. rewrite <- surjective_pairing in P1, P2. subst q1 q2.
    split; [exact W1|]. split; [apply (cp_same CP)|]. repeat split.
    - rewrite (cp_slot CP). destruct (slot_eqb_spec p1 p1); [reflexivity|congruence].
    - rewrite (cp_slot CP). destruct (slot_eqb_spec p2 p2); [rewrite orb_true_r; reflexivity|congruence].
    - intros p N1 N2. rewrite (cp_slot CP). destruct (slot_eqb_spec p p1); [congruence|]. destruct (slot_eqb_spec p p2); [congruence|]. reflexivity.
    - intros S a NS I1 I2. apply (connect_value a W CP NS I1 I2).
  Qed.

  Lemma disconnect_effect s p e ed : wf s -> slot s p = Some e -> s_edges s e = Some ed -> e_2 ed <> None ->
    exists s' f1 f2 p1 p2, disconnect e s = (s', Some (f1, f2)) /\ wf s' /\ same_nodes s s' /\ p1 <> p2 /\
      slot s p1 = Some e /\ slot s p2 = Some e /\ slot s' p1 = Some f1 /\ slot s' p2 = Some f2 /\ dangles s' p1 /\ dangles s' p2 /\
      (forall q, q <> p1 -> q <> p2 -> slot s' q = slot s q) /\
      (forall S a, NoDup S -> In (fst p1) S -> In (fst p2) S ->
         netval s S a = nsum (edim s e) (fun i => netval s' S (upd Nat.eq_dec (upd Nat.eq_dec a f1 i) f2 i))).
  Proof.
    intros W Hp He Hd. destruct (get_edge_slot W Hp) as (ed' & G & E & Z). rewrite He in E. injection E as <-.
    destruct (e_2 ed) as [[n2 a2]|] eqn:E2; [|contradiction]. pose proof (ends_live W Hp He) as L. unfold ends in L. rewrite E2 in L.
    assert (slot s (e_n1 ed, e_a1 ed) = Some e) as L1 by (apply L; left; reflexivity). assert (slot s (n2, a2) = Some e) as L2 by (apply L; right; left; reflexivity).
    assert (exists s' r, disconnect e s = (s', Some r)) as (s' & [f1 f2] & D).
    { unfold disconnect. unfold bind at 1. rewrite G, E2. unfold bind at 1, alloc_edge at 1. unfold bind at 1, alloc_edge at 1. cbn [s_nodes s_edges s_nn s_ne].
      set (s1 := St _ _ _ _).
      assert (s_edges s1 e = Some ed) as Ee. { cbn. pose proof (proj2 (slot_lt W Hp)). rewrite !upd_other by lia. exact He. }
      destruct (@add_edge_ok s1 (e_n1 ed) (e_a1 ed) (s_ne s) e ed) as (s2 & A1); [intros nd Hn; apply (wf_rank W Hn)|exact L1|exact Ee|].
      unfold bind at 1. rewrite A1. destruct (add_edge_slot A1) as (S1 & S2 & S3 & S4 & S5 & _).
      assert (exists c d, slot s2 (n2, a2) = Some c /\ s_edges s2 c = Some d) as (c & d & C1 & C2).
      { rewrite S5. destruct (slot_eqb_spec (n2, a2) (e_n1 ed, e_a1 ed)) as [Q|Q].
        - exists (s_ne s). eexists. split; [reflexivity|]. rewrite S2. cbn. rewrite upd_other by lia. apply upd_same.
        - exists e, ed. split; [exact L2|]. rewrite S2. exact Ee. }
      destruct (@add_edge_ok s2 n2 a2 (S (s_ne s)) c d) as (s3 & A2); [|exact C1|exact C2|].
      { intros nd Hn. specialize (S1 n2). rewrite Hn in S1. destruct (s_nodes s1 n2) as [b|] eqn:Eb; [|contradiction].
        destruct S1 as (-> & _ & ->). apply (wf_rank W Eb). }
      unfold bind at 1. rewrite A2. unfold ret. eauto. }
    destruct (disconnect_inv W (ex_intro _ _ Hp) D) as (p1 & p2 & DP). pose proof (disconnect_wf W DP) as W'.
    assert (slot s' p1 = Some f1) as K1. { rewrite (dp_slot DP). destruct (slot_eqb_spec p1 p1); [reflexivity|congruence]. }
    pose proof (dp_p DP) as Hne.
    assert (slot s' p2 = Some f2) as K2. { rewrite (dp_slot DP). destruct (slot_eqb_spec p2 p1); [congruence|]. destruct (slot_eqb_spec p2 p2); [reflexivity|congruence]. }
    exists s', f1, f2, p1, p2. split; [exact D|]. split; [exact W'|]. split; [apply (dp_same DP)|]. split; [exact Hne|].
    split; [apply (dp_p1 DP)|]. split; [apply (dp_p2 DP)|]. split; [exact K1|]. split; [exact K2|].
    split; [exists f1; split; [exact K1|apply (dp_f1 DP)]|]. split; [exists f2; split; [exact K2|apply (dp_f2 DP)]|]. split.
    - intros q N1 N2. rewrite (dp_slot DP). destruct (slot_eqb_spec q p1); [congruence|]. destruct (slot_eqb_spec q p2); [congruence|]. reflexivity.
    - intros S a NS I1 I2. apply (disconnect_value a W DP NS I1 I2).
  Qed.

  (** ** reordering *)
  Lemma reorder_axes_law n perm s s' (x : unit) : wf s -> reorder_axes n perm s = (s', Some x) ->
    wf s' /\ exists nd, s_nodes s n = Some nd /\ is_perm (length (n_edges nd)) perm /\
      (forall m, s_nodes s' m = if Nat.eqb m n then Some (Node (transpose (n_t nd) perm) (gather 0 (n_edges nd) perm) (gather 0 (n_names nd) perm)) else s_nodes s m) /\
      forall S a, ~ In n S -> netval s (n :: S) a = netval s' (n :: S) a.
  Proof.
    intros W H. destruct (reorder_axes_inv H) as (nd & Hn & Hp & RP). destruct (reorder_wf W (wf_live_at W) Hn Hp RP) as (W' & _).
    split; [exact W'|]. exists nd. split; [exact Hn|]. split; [exact Hp|]. split; [apply RP|]. intros S a NS. apply (reorder_value a W W' Hn Hp NS RP).
  Qed.

  Lemma reorder_edges_law n order s s' (x : unit) : wf s -> reorder_edges n order s = (s', Some x) ->
    wf s' /\ exists nd nd', s_nodes s n = Some nd /\ s_nodes s' n = Some nd' /\ n_edges nd' = order /\ Permutation order (n_edges nd) /\
      (forall m, m <> n -> s_nodes s' m = s_nodes s m) /\
      (forall a, elt (n_t nd') (map a order) = elt (n_t nd) (map a (n_edges nd))) /\
      forall S a, ~ In n S -> netval s (n :: S) a = netval s' (n :: S) a.
  Proof.
    intros W H. destruct (reorder_edges_inv H) as (nd & Hn & K). cbn zeta in K. destruct K as (Hp & Ho & RP).
    destruct (reorder_wf W (wf_live_at W) Hn Hp RP) as (W' & _). split; [exact W'|]. pose proof RP as (_ & _ & RN & _).
    set (perm := map (fun e => nindex e (n_edges nd)) order) in *.
    exists nd. eexists. split; [exact Hn|]. split; [rewrite RN, Nat.eqb_refl; reflexivity|]. cbn [n_edges n_t]. split; [symmetry; exact Ho|]. split.
    { rewrite Ho at 1. apply gather_perm. exact Hp. }
    split; [intros m Hm; rewrite RN; destruct (Nat.eqb_spec m n); [contradiction|reflexivity]|]. split.
    - intros a. rewrite Ho. apply (@fval_transpose nat R (n_t nd) (n_edges nd) perm 0 a Hp).
    - intros S a NS. apply (reorder_value a W W' Hn Hp NS RP).
  Qed.

  (** ** remove_node *)
  (** p and q are the two ends of an edge between n and another node *)
  Definition cut_by s (n : nid) (p q : nid * nat) : Prop :=
    exists c, slot s p = Some c /\ slot s q = Some c /\ ((fst p = n /\ fst q <> n) \/ (fst q = n /\ fst p <> n)).

  Lemma cut_crosses s n nd p q : s_nodes s n = Some nd -> crosses s n 0 (length (n_edges nd)) p q <-> cut_by s n p q.
  Proof.
    intros Hn. split.
    - intros (_ & c & K1 & K2 & K). exists c. intuition.
    - intros (c & K1 & K2 & K). split; [intros ->; destruct K as [[? ?]|[? ?]]; congruence|]. exists c. split; [exact K1|]. split; [exact K2|].
      assert (forall r, slot s r = Some c -> fst r = n -> 0 <= snd r < 0 + length (n_edges nd)) as B.
      { intros [m j] Hr E. cbn in E. subst m. unfold slot in Hr. cbn in Hr. rewrite Hn in Hr. cbn. split; [lia|]. apply nth_error_Some. congruence. }
      destruct K as [[E1 E2]|[E1 E2]]; [left|right]; auto.
  Qed.

  Lemma remove_node_law n s s' l nd : wf s -> s_nodes s n = Some nd -> length (n_names nd) = rank (n_t nd) -> remove_node n s = (s', Some l) ->
    wf s' /\ same_nodes s s' /\
    (forall p q, cut_by s n p q -> dangles s' p) /\
    (forall p c, slot s p = Some c -> (forall q, ~ cut_by s n p q) -> slot s' p = Some c) /\
    (forall c, c < s_ne s -> s_edges s' c = s_edges s c) /\
    (forall j f, In (j, f) l <-> exists q, cut_by s n (n, j) q /\ slot s' q = Some f).
  Proof.
    intros W Hn Hr H. destruct (remove_node_inv W H) as (nd' & Hn' & RM). rewrite Hn in Hn'. injection Hn' as <-.
    rewrite Hr, <- (wf_rank W Hn) in RM. split; [apply (rm_wf RM)|]. split; [apply (rm_same RM)|]. split; [|split; [|split]].
    - intros p q K. apply (rm_cut RM (p := p) (q := q)). apply (cut_crosses _ _ Hn). exact K.
    - intros p c Hp K. apply (rm_keep RM Hp). intros q Q. apply (K q). apply (cut_crosses _ _ Hn). exact Q.
    - apply (rm_edges RM).
    - intros j f. rewrite (rm_list RM). split.
      + intros (q & K1 & K2 & K3). exists q. split; [apply (cut_crosses _ _ Hn); exact K1|exact K2].
      + intros (q & K1 & K2). exists q. split; [apply (cut_crosses _ _ Hn); exact K1|]. split; [exact K2|].
        destruct K1 as (c & _ & _ & [K|[K1 K3]]); [tauto|cbn in K3; congruence].
  Qed.
End GL.
