(** * GraphRetail: replacing some axes of a node by others (the common core of flattening and splitting) *)
From Verif Require Import Prelude Algebra Tensor TensorFacts Einsum EinsumFacts NetworkFacts Graph GraphBase GraphContract GraphOps GraphValue.
Set Implicit Arguments.
Unset Strict Implicit.

Lemma ravel_app s1 s2 i1 i2 : length i1 = length s1 -> ravel (s1 ++ s2) (i1 ++ i2) = ravel s1 i1 * nprod s2 + ravel s2 i2.
Proof.
  revert i1. induction s1 as [|d s1 IH]; intros [|i i1] H; try discriminate; cbn [ravel app].
  - reflexivity.
  - rewrite IH by (cbn in H; lia). rewrite nprod_app. ring.
Qed.
Lemma unravel_app s1 s2 k r : r < nprod s2 -> k < nprod s1 -> unravel (s1 ++ s2) (k * nprod s2 + r) = unravel s1 k ++ unravel s2 r.
Proof.
  intros Hr Hk. set (i1 := unravel s1 k). set (i2 := unravel s2 r).
  pose proof (unravel_valid _ Hk) as V1. pose proof (unravel_valid _ Hr) as V2. fold i1 in V1. fold i2 in V2.
  rewrite <- (ravel_unravel _ Hk), <- (ravel_unravel _ Hr). fold i1 i2.
  rewrite <- ravel_app by (apply valid_length; exact V1). apply unravel_ravel. apply valid_app; assumption.
Qed.
Lemma unravel_length s k : length (unravel s k) = length s.
Proof. revert k. induction s as [|d s IH]; intros k; cbn; [reflexivity|]. rewrite IH. reflexivity. Qed.
Lemma unravel_single d k : unravel [d] k = [k].
Proof. cbn [unravel nprod fold_right]. rewrite Nat.div_1_r. reflexivity. Qed.
Lemma ravel_single d k : ravel [d] [k] = k.
Proof. cbn. lia. Qed.

Section GR.
  Context {R : csr}.
  Notation st := (@st R).
  Notation M := (@M R).
  Notation node := (@node R).
  Implicit Types (s : st) (e : eid).

  (** the tensor of a node after moving the axes [back] last and reshaping them to [sh] *)
  Definition retensor (t : tensor R) (back sh : list nat) : tensor R :=
    reshape (transpose t (free_axes (rank t) back ++ back)) (gather 0 (shape t) (free_axes (rank t) back) ++ sh).

  Lemma retensor_fval (L : Type) (t : tensor R) (es : list L) back sh news d a b :
    rank t = length es -> is_perm (length es) (free_axes (length es) back ++ back) ->
    nprod sh = nprod (gather 0 (shape t) back) ->
    valid (map a (gather d es (free_axes (length es) back))) (gather 0 (shape t) (free_axes (length es) back)) ->
    valid (map a news) sh ->
    map b (gather d es (free_axes (length es) back)) = map a (gather d es (free_axes (length es) back)) ->
    map b (gather d es back) = unravel (gather 0 (shape t) back) (ravel sh (map a news)) ->
    fval (retensor t back sh, gather d es (free_axes (length es) back) ++ news) a = fval (t, es) b.
  Proof.
    intros Hr Hp Hsz V1 V2 Ef Eb. rewrite <- (@fval_transpose _ R t es _ d b Hp). unfold fval, retensor. cbn [fst snd reshape transpose elt shape].
    rewrite Hr. set (fr := free_axes (length es) back) in *. f_equal.
    rewrite !gather_app, !map_app, Ef, Eb. f_equal.
    pose proof (valid_length V1) as L1.
    rewrite ravel_app by exact L1. rewrite Hsz. rewrite unravel_app.
    - rewrite unravel_ravel by exact V1. reflexivity.
    - rewrite <- Hsz. apply ravel_lt. exact V2.
    - apply ravel_lt. exact V1.
  Qed.

  Record retail s s' (n : nid) (nd : node) (back sh : list nat) : Prop := {
    rt_perm : is_perm (length (n_edges nd)) (free_axes (length (n_edges nd)) back ++ back);
    rt_nn : s_nn s' = s_nn s;
    rt_ne : s_ne s' = s_ne s + length sh;
    rt_node : exists nms, s_nodes s' n = Some (Node (retensor (n_t nd) back sh)
                 (gather 0 (n_edges nd) (free_axes (length (n_edges nd)) back) ++ seq (s_ne s) (length sh)) nms);
    rt_others : forall m, m <> n -> s_nodes s' m = s_nodes s m;
    rt_fresh : forall i, i < length sh ->
      s_edges s' (s_ne s + i) = Some (Edge n (length (free_axes (length (n_edges nd)) back) + i) None false);
    rt_away : forall e, e < s_ne s -> (forall k, slot s (n, k) <> Some e) -> s_edges s' e = s_edges s e;
    rt_wf : forall X, wfx X s -> wfx (fun e => X e \/ In e (gather 0 (n_edges nd) back)) s';
    rt_live : forall m, m <> n -> live_at s m -> live_at s' m
  }.

  Lemma firstn_gather_app (l : list nat) p q : firstn (length p) (gather 0 l (p ++ q)) = gather 0 l p.
  Proof. rewrite gather_app. rewrite <- (gather_length 0 l p) at 1. rewrite firstn_app, Nat.sub_diag, firstn_all. apply app_nil_r. Qed.
  Lemma skipn_gather_app (l : list nat) p q : skipn (length p) (gather 0 l (p ++ q)) = gather 0 l q.
  Proof. rewrite gather_app. rewrite <- (gather_length 0 l p) at 1. rewrite skipn_app, Nat.sub_diag, skipn_all. reflexivity. Qed.

  Lemma retail_intro (X : eid -> Prop) s s1 s' n nd back sh nm1 nms :
    wfx X s -> live_at s n -> s_nodes s n = Some nd ->
    let fr := free_axes (length (n_edges nd)) back in
    is_perm (length (n_edges nd)) (fr ++ back) ->
    reorder_post s s1 n nd (fr ++ back) nm1 ->
    tail_post s1 s' n (Node (transpose (n_t nd) (fr ++ back)) (gather 0 (n_edges nd) (fr ++ back)) nm1) (length fr)
      (reshape (transpose (n_t nd) (fr ++ back)) (firstn (length fr) (shape (transpose (n_t nd) (fr ++ back))) ++ sh)) sh nms ->
    retail s s' n nd back sh.
  Proof.
    intros W Hl Hn fr Hp Hr Ht.
    pose proof (wf_rank W Hn) as Hrk.
    pose proof Hr as (R1 & R2 & R3 & R4). pose proof Ht as (T1 & T2 & T3 & T4).
    destruct (reorder_wf W Hl Hn Hp Hr) as (W1 & Hed & Haway).
    assert (s_nodes s1 n = Some (Node (transpose (n_t nd) (fr ++ back)) (gather 0 (n_edges nd) (fr ++ back)) nm1)) as Hn1
      by (rewrite R3, Nat.eqb_refl; reflexivity).
    cbn [n_edges n_t transpose shape] in T3. rewrite !firstn_gather_app in T3.
    assert (forall e, e < s_ne s -> s_edges s' e = s_edges s1 e) as Hold.
    { intros e He. rewrite T4, R2. rewrite (proj2 (Nat.leb_nle _ _)) by lia. reflexivity. }
    assert (forall i, i < length sh -> s_edges s' (s_ne s + i) = Some (Edge n (length fr + i) None false)) as Hfresh.
    { intros i Hi. rewrite T4, R2. rewrite (proj2 (Nat.leb_le _ _)), (proj2 (Nat.ltb_lt _ _)) by lia. cbn [andb]. do 2 f_equal. lia. }
    split; auto.
    - congruence.
    - rewrite T2, R2. reflexivity.
    - exists nms. rewrite T3, Nat.eqb_refl, R2. unfold retensor. rewrite <- Hrk. reflexivity.
    - intros m Hm. rewrite T3. destruct (Nat.eqb_spec m n); [contradiction|]. rewrite R3. destruct (Nat.eqb_spec m n); [contradiction|reflexivity].
    - intros e He K. rewrite (Hold e He). apply Haway. exact K.
    - intros X' W'. destruct (reorder_wf W' Hl Hn Hp Hr) as (W1' & _).
      assert (length fr <= length (gather 0 (n_edges nd) (fr ++ back))) as Hle by (rewrite gather_length, app_length; lia).
      eapply wfx_weaken; [|eapply tail_wf; [exact W1'|exact Hn1|exact Hle| |exact Ht]; reflexivity].
      cbn [n_edges]. rewrite skipn_gather_app. auto.
    - intros m Hm Hlm p e ed q Hp' He Hq Hqm.
      destruct p as [pn pj].
      assert (e < s_ne s -> slot s (pn, pj) = Some e \/ exists k, slot s (n, k) = Some e) as Hold_slot.
      { intros He'. unfold slot in Hp'. cbn [fst snd] in Hp'. rewrite T3 in Hp'. destruct (Nat.eqb_spec pn n) as [->|Hpn].
        - cbn [n_edges] in Hp'. apply nth_error_In in Hp'. apply in_app_or in Hp'. destruct Hp' as [K|K].
          + right. apply In_gather in K. destruct K as (k & Hk & ->). exists k. apply (slot_intro Hn). apply nth_error_nth'.
            apply In_free_axes in Hk. apply Hk.
          + apply in_seq in K. lia.
        - left. rewrite R3 in Hp'. destruct (Nat.eqb_spec pn n); [contradiction|]. exact Hp'. }
      destruct (Nat.lt_ge_cases e (s_ne s)) as [Hlt|Hge].
      + assert (exists p', slot s p' = Some e) as (p' & Hs) by (destruct (Hold_slot Hlt) as [K|[k K]]; eauto).
        rewrite (Hold e Hlt) in He. destruct (wf_slot W Hs) as (ed0 & E0 & _).
        destruct (Hed e ed0 E0 (ex_intro _ p' Hs)) as (ed' & E1 & P1 & _). rewrite He in E1. injection E1 as <-.
        apply (Permutation_in _ P1) in Hq. apply in_map_iff in Hq. destruct Hq as (q0 & Hq0 & Hin).
        assert (q0 = q) as ->.
        { unfold reorder_map in Hq0. destruct (Nat.eqb_spec (fst q0) n); [|exact Hq0]. subst q. cbn in Hqm. congruence. }
        pose proof (Hlm p' e ed0 q Hs E0 Hin Hqm) as K. unfold slot in *. rewrite Hqm in *. rewrite T3.
        destruct (Nat.eqb_spec m n); [contradiction|]. rewrite R3. destruct (Nat.eqb_spec m n); [contradiction|]. exact K.
      + exfalso. rewrite T4, R2 in He. rewrite (proj2 (Nat.leb_le _ _)) in He by exact Hge.
        destruct (Nat.ltb_spec e (s_ne s + length sh)); cbn [andb] in He.
        * injection He as <-. destruct Hq as [<-|[]]. cbn in Hqm. congruence.
        * pose proof (R4 e) as R4e. rewrite He in R4e. destruct (s_edges s e) eqn:Es; [|discriminate].
          pose proof (wf_ne W Es) as K. unfold slot in Hp'. clear K.
          pose proof (wf_ne W Es). lia.
  Qed.

  (** the slots after replacing axes *)
  Lemma retail_slot s s' n nd back sh p e :
    s_nodes s n = Some nd -> retail s s' n nd back sh -> slot s' p = Some e -> e < s_ne s ->
    (fst p = n /\ exists j, In j (free_axes (length (n_edges nd)) back) /\ slot s (n, j) = Some e) \/
    (fst p <> n /\ slot s p = Some e).
  Proof.
    intros Hn T Hp He. destruct p as [m k]. cbn [fst]. destruct (rt_node T) as (nms & HN). destruct (Nat.eq_dec m n) as [->|Hm].
    - left. split; [reflexivity|]. apply slot_node in Hp. destruct Hp as (nd' & E & Hk). rewrite HN in E. injection E as <-. cbn [n_edges] in Hk.
      apply nth_error_In in Hk. apply in_app_or in Hk. destruct Hk as [K|K]; [|apply in_seq in K; lia].
      apply In_gather in K. destruct K as (j & Hj & ->). exists j. split; [exact Hj|]. apply (slot_intro Hn). apply nth_error_nth'.
      apply In_free_axes in Hj. apply Hj.
    - right. split; [exact Hm|]. unfold slot in *. cbn [fst snd] in *. rewrite (rt_others T Hm) in Hp. exact Hp.
  Qed.
  Lemma retail_new_slot s s' n nd back sh i :
    retail s s' n nd back sh -> i < length sh ->
    slot s' (n, length (free_axes (length (n_edges nd)) back) + i) = Some (s_ne s + i).
  Proof.
    intros T Hi. destruct (rt_node T) as (nms & HN). apply (slot_intro HN). cbn [n_edges].
    rewrite nth_error_app2; rewrite gather_length; [|lia]. rewrite Nat.add_comm, Nat.add_sub.
    rewrite (nth_error_nth' _ 0) by (rewrite seq_length; exact Hi). rewrite seq_nth by exact Hi. reflexivity.
  Qed.

  (** ** from the code *)
  Lemma back_perm_NoDup n back : is_perm n (free_axes n back ++ back) -> NoDup back /\ (forall j, In j back -> j < n).
  Proof.
    intros H. split.
    - apply is_perm_NoDup in H. apply NoDup_app_iff in H. tauto.
    - intros j Hj. apply (is_perm_In j H). apply in_or_app. auto.
  Qed.

  Lemma gather_nindex (l es : list nat) : (forall x, In x es -> In x l) -> gather 0 l (map (fun x => nindex x l) es) = es.
  Proof.
    intros H. unfold gather. rewrite map_map. rewrite <- (map_id es) at 2. apply map_ext_in. intros x Hx. apply nth_index_of. auto.
  Qed.

  Lemma flatten_node_retail (X : eid -> Prop) n es s s' f :
    wfx X s -> live_at s n -> flatten_node n es s = (s', Some f) ->
    exists nd, s_nodes s n = Some nd /\ (forall e, In e es -> In e (n_edges nd)) /\ f = s_ne s /\
      let back := map (fun e => nindex e (n_edges nd)) es in
      retail s s' n nd back [nprod (gather 0 (shape (n_t nd)) back)] /\
      (forall nd', s_nodes s' n = Some nd' -> n_names nd' = firstn (S (length (free_axes (length (n_edges nd)) back))) (n_names nd)).
  Proof.
    intros W Hl H. unfold flatten_node in H.
    apply bind_inv in H. destruct H as (nd & s1 & H1 & H). apply get_node_inv in H1. destruct H1 as [-> Hn].
    apply bind_inv in H. destruct H as (u & s1 & H1 & H). apply guard_inv in H1. destruct H1 as [Hg ->].
    rewrite forallb_forall in Hg.
    assert (forall e, In e es -> In e (n_edges nd)) as Hin by (intros e He; apply mem_In; auto). clear Hg.
    cbn zeta in H. set (back := map (fun e => nindex e (n_edges nd)) es) in *. set (fr := free_axes (length (n_edges nd)) back) in *.
    apply bind_inv in H. destruct H as (u1 & s1 & H1 & H). apply reorder_axes_inv in H1. destruct H1 as (nd0 & K & Hp & Hr).
    rewrite Hn in K. injection K as <-.
    pose proof Hr as (R1 & R2 & R3 & R4).
    assert (s_nodes s1 n = Some (Node (transpose (n_t nd) (fr ++ back)) (gather 0 (n_edges nd) (fr ++ back)) (gather 0 (n_names nd) (fr ++ back)))) as Hn1
      by (rewrite R3, Nat.eqb_refl; reflexivity).
    apply bind_inv in H. destruct H as (nd' & s2 & H1 & H). apply get_node_inv in H1. destruct H1 as [-> H1].
    rewrite Hn1 in H1. injection H1 as <-. cbn [n_t n_edges n_names] in H.
    apply bind_inv in H. destruct H as (e & s2 & H1 & H). injection H1 as <- <-.
    apply bind_inv in H. destruct H as (u2 & s3 & H1 & H). apply set_node_inv in H1. subst s3.
    apply bind_inv in H. destruct H as (u3 & s3 & H1 & H). apply guard_inv in H1. destruct H1 as [_ ->].
    apply bind_inv in H. destruct H as (u4 & s4 & H1 & H). apply set_node_inv in H1. subst s4. injection H as <- <-.
    exists nd. split; [exact Hn|]. split; [exact Hin|]. split; [congruence|]. cbn zeta. fold back fr.
    assert (skipn (length fr) (shape (transpose (n_t nd) (fr ++ back))) = gather 0 (shape (n_t nd)) back) as Esk by apply skipn_gather_app.
    split.
    - rewrite <- Esk. eapply (@retail_intro X s s1); eauto. fold fr. split; [|split; [|split]].
      + reflexivity.
      + cbn. lia.
      + intros m. cbn [s_nodes with_node n_edges length seq]. unfold upd. destruct (Nat.eqb_spec m n), (Nat.eq_dec m n); try congruence; try reflexivity.
      + intros e. cbn [s_edges with_node length]. unfold upd. destruct (Nat.eq_dec e (s_ne s1)) as [->|Hne].
        * rewrite (proj2 (Nat.leb_le _ _)), (proj2 (Nat.ltb_lt _ _)) by lia. cbn [andb]. do 2 f_equal. lia.
        * destruct (Nat.leb_spec (s_ne s1) e), (Nat.ltb_spec e (s_ne s1 + 1)); cbn [andb]; try reflexivity. lia.
    - intros nd' E. cbn in E. rewrite upd_same in E. injection E as <-. reflexivity.
  Qed.

  Lemma split_node_retail (X : eid -> Prop) n e sh nms s s' es :
    wfx X s -> live_at s n -> split_node_axis n e sh nms s = (s', Some es) ->
    exists nd, s_nodes s n = Some nd /\ In e (n_edges nd) /\ es = seq (s_ne s) (length sh) /\
      retail s s' n nd [nindex e (n_edges nd)] sh.
  Proof.
    intros W Hl H. unfold split_node_axis in H.
    apply bind_inv in H. destruct H as (nd & s1 & H1 & H). apply get_node_inv in H1. destruct H1 as [-> Hn].
    apply bind_inv in H. destruct H as (u & s1 & H1 & H). apply guard_inv in H1. destruct H1 as [Hg ->].
    apply mem_In in Hg.
    cbn zeta in H. set (back := [nindex e (n_edges nd)]) in *. set (fr := free_axes (length (n_edges nd)) back) in *.
    apply bind_inv in H. destruct H as (u1 & s1 & H1 & H). apply reorder_axes_inv in H1. destruct H1 as (nd0 & K & Hp & Hr).
    rewrite Hn in K. injection K as <-.
    pose proof Hr as (R1 & R2 & R3 & R4).
    assert (s_nodes s1 n = Some (Node (transpose (n_t nd) (fr ++ back)) (gather 0 (n_edges nd) (fr ++ back)) (gather 0 (n_names nd) (fr ++ back)))) as Hn1
      by (rewrite R3, Nat.eqb_refl; reflexivity).
    apply bind_inv in H. destruct H as (nd' & s2 & H1 & H). apply get_node_inv in H1. destruct H1 as [-> H1].
    rewrite Hn1 in H1. injection H1 as <-. cbn [n_t n_edges n_names] in H.
    apply bind_inv in H. destruct H as (es' & s2 & H1 & H). apply alloc_edges_inv in H1. destruct H1 as (-> & A1 & A2 & A3 & A4).
    apply bind_inv in H. destruct H as (u2 & s3 & H1 & H). apply set_node_inv in H1. subst s3.
    apply bind_inv in H. destruct H as (u3 & s3 & H1 & H). apply guard_inv in H1. destruct H1 as [_ ->].
    apply bind_inv in H. destruct H as (u4 & s3 & H1 & H). apply guard_inv in H1. destruct H1 as [_ ->].
    apply bind_inv in H. destruct H as (u5 & s4 & H1 & H). apply set_node_inv in H1. subst s4. injection H as <- <-.
    exists nd. split; [exact Hn|]. split; [exact Hg|]. split; [congruence|].
    eapply (@retail_intro X s s1); eauto. fold back fr. split; [|split; [|split]].
    - cbn. congruence.
    - cbn. congruence.
    - intros m. cbn [s_nodes with_node n_edges]. unfold upd. destruct (Nat.eqb_spec m n), (Nat.eq_dec m n); try congruence; try reflexivity; rewrite A1; reflexivity.
    - intros e0. cbn [s_edges with_node]. apply A4.
  Qed.
End GR.
