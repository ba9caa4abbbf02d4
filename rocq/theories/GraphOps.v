(** * GraphOps: the elementary graph operations keep well-formedness *)
From Verif Require Import Prelude Algebra Tensor TensorFacts Einsum EinsumFacts NetworkFacts Graph GraphBase GraphContract.
Set Implicit Arguments.
Unset Strict Implicit.

Section GO.
  Context {R : csr}.
  Notation st := (@st R).
  Notation M := (@M R).
  Notation node := (@node R).
  Implicit Types (s : st) (e : eid).

  Lemma slot_node s n k e : slot s (n, k) = Some e -> exists nd, s_nodes s n = Some nd /\ nth_error (n_edges nd) k = Some e.
  Proof. unfold slot. cbn. destruct (s_nodes s n) as [nd|]; [eauto|discriminate]. Qed.

  Lemma slot_intro s n nd k e : s_nodes s n = Some nd -> nth_error (n_edges nd) k = Some e -> slot s (n, k) = Some e.
  Proof. intros H1 H2. unfold slot. cbn. rewrite H1. exact H2. Qed.

  Lemma ends_live s p e ed : wf s -> slot s p = Some e -> s_edges s e = Some ed -> forall q, In q (ends ed) -> slot s q = Some e.
  Proof.
    intros W Hp He q Hq. destruct (wf_slot W Hp) as (ed' & E & _ & _ & _ & H). rewrite He in E. injection E as <-.
    apply (H (fun f => f) q Hq).
  Qed.
  Lemma live_in_ends s p e ed : wf s -> slot s p = Some e -> s_edges s e = Some ed -> In p (ends ed).
  Proof.
    intros W Hp He. destruct (wf_slot W Hp) as (ed' & E & _ & H & _). rewrite He in E. injection E as <-. exact H.
  Qed.

  (** ** new nodes *)
  Lemma new_node_wf t names s s' n :
    wf s -> new_node t names s = (s', Some n) ->
    wf s' /\ lonely s' n /\ n = s_nn s /\ s_nodes s n = None /\ s_nn s' = S (s_nn s) /\
    (exists nms, length nms = rank t /\ (names = None -> nms = seq 0 (rank t)) /\ (forall l, names = Some l -> nms = l) /\
                 s_nodes s' n = Some (Node t (seq (s_ne s) (rank t)) nms)) /\
    (forall m, m <> n -> s_nodes s' m = s_nodes s m) /\
    (forall e, e < s_ne s -> s_edges s' e = s_edges s e) /\ s_ne s' = s_ne s + rank t.
  Proof.
    intros W H. apply new_node_inv in H. destruct H as (nms & -> & H1 & H2 & H3 & H4 & H5 & H6 & H7).
    assert (s_nodes s (s_nn s) = None) as Hnone.
    { destruct (s_nodes s (s_nn s)) eqn:E; [|reflexivity]. pose proof (wf_nn W E). lia. }
    assert (forall e, e < s_ne s -> s_edges s' e = s_edges s e) as Hold.
    { intros e He. rewrite H7. rewrite (proj2 (Nat.leb_nle _ _)) by lia. reflexivity. }
    assert (forall m, m <> s_nn s -> s_nodes s' m = s_nodes s m) as Hm.
    { intros m Hm. rewrite H6. destruct (Nat.eqb_spec m (s_nn s)); [contradiction|reflexivity]. }
    assert (forall k e, slot s' (s_nn s, k) = Some e -> s_edges s' e = Some (Edge (s_nn s) k None false)) as Hl.
    { intros k e Hk. unfold slot in Hk. cbn [fst snd] in Hk. rewrite H6, Nat.eqb_refl in Hk. cbn [n_edges] in Hk.
      assert (k < rank t) as Hkt by (rewrite <- (seq_length (rank t) (s_ne s)); apply nth_error_Some; congruence).
      rewrite (nth_error_nth' _ 0) in Hk by (rewrite seq_length; exact Hkt). rewrite seq_nth in Hk by exact Hkt. injection Hk as <-.
      rewrite H7. rewrite (proj2 (Nat.leb_le _ _)), (proj2 (Nat.ltb_lt _ _)) by lia. cbn [andb]. do 2 f_equal. lia. }
    split; [|split; [exact Hl|]].
    2:{ split; [reflexivity|]. split; [exact Hnone|]. split; [exact H1|]. split; [|split; [exact Hm|split; [exact Hold|exact H2]]].
        exists nms. rewrite H6, Nat.eqb_refl. auto. }
    apply (@wfx_rename _ (fun _ => False) s s').
    - intros m nd E. rewrite H6 in E. destruct (Nat.eqb_spec m (s_nn s)); [|apply (wf_rank W E)].
      injection E as <-. cbn. apply seq_length.
    - intros m nd E. rewrite H1. rewrite H6 in E. destruct (Nat.eqb_spec m (s_nn s)); [lia|]. pose proof (wf_nn W E). lia.
    - intros e ed E. rewrite H2. rewrite H7 in E.
      destruct (Nat.leb_spec (s_ne s) e); [|lia]. destruct (Nat.ltb_spec e (s_ne s + rank t)); [lia|].
      cbn [andb] in E. pose proof (wf_ne W E). lia.
    - intros [m k] e Hs. cbn [fst snd]. destruct (Nat.eq_dec m (s_nn s)) as [->|Hne]; [left; apply Hl; exact Hs|right].
      assert (forall q, fst q <> s_nn s -> slot s' q = slot s q /\ dimat s' q = dimat s q) as Hq.
      { intros q Hq. unfold slot, dimat. rewrite (Hm _ Hq). auto. }
      rewrite (proj1 (Hq (m, k) Hne)) in Hs.
      destruct (wf_slot W Hs) as (ed & E & Hd & Hin & Hnd & Hall).
      exists (fun p => p), (m, k), ed, ed. split; [exact Hs|]. split; [reflexivity|]. split; [exact E|].
      split; [rewrite Hold; [exact E|apply (slot_lt W Hs)]|]. split; [auto|]. split; [rewrite map_id; reflexivity|].
      split; [auto|]. intros HX q Hin'. destruct (Hall (fun f => f) q Hin') as [K1 K2].
      pose proof (slot_lt W K1) as [Kl _]. destruct (Hq q) as [-> ->]; [lia|]. auto.
    - exact W.
  Qed.

  Lemma empty_wf : wf (empty_st (R := R)).
  Proof. split; try discriminate. Qed.

  (** ** disabling edges that are on no node *)
  Lemma disable_wf (X : eid -> Prop) l s s' (x : unit) :
    wfx X s -> mfor l (@disable_edge R) s = (s', Some x) -> (forall p e, slot s p = Some e -> ~ In e l) ->
    wfx X s' /\ s_nodes s' = s_nodes s /\ s_nn s' = s_nn s /\ s_ne s' = s_ne s /\ (forall e, ~ In e l -> s_edges s' e = s_edges s e).
  Proof.
    intros W H Hl. apply disable_all_inv in H. destruct H as (H1 & H2 & H3 & H4).
    assert (forall e, ~ In e l -> s_edges s' e = s_edges s e) as Hold.
    { intros e He. rewrite H4. apply mem_nIn in He. rewrite He. reflexivity. }
    assert (forall p, slot s' p = slot s p) as Hsl by (intros p; unfold slot; rewrite H1; reflexivity).
    assert (forall p, dimat s' p = dimat s p) as Hdm by (intros p; unfold dimat; rewrite H1; reflexivity).
    split; [|auto]. split.
    - rewrite H1. apply W.
    - rewrite H1, H2. apply W.
    - rewrite H3. intros e ed E. rewrite H4 in E. destruct (s_edges s e) as [ed0|] eqn:E0; [apply (wf_ne W E0)|].
      destruct (mem e l); discriminate.
    - intros p e Hs. rewrite Hsl in Hs. rewrite (Hold e (Hl _ _ Hs)).
      destruct (wf_slot W Hs) as (ed & E1 & E2 & E3 & E4 & E5). exists ed. repeat split; auto; intros; rewrite ?Hsl, ?Hdm; apply E5; auto.
  Qed.

  (** ** replacing a tail of a node's edges by fresh ones *)
  Definition tail_post s s' (n : nid) (nd : node) (k : nat) (t : tensor R) (sh names : list nat) : Prop :=
    s_nn s' = s_nn s /\ s_ne s' = s_ne s + length sh /\
    (forall m, s_nodes s' m = if Nat.eqb m n then Some (Node t (firstn k (n_edges nd) ++ seq (s_ne s) (length sh)) names) else s_nodes s m) /\
    (forall e, s_edges s' e = if Nat.leb (s_ne s) e && Nat.ltb e (s_ne s + length sh)
                              then Some (Edge n (k + (e - s_ne s)) None false) else s_edges s e).

  Lemma nth_error_firstn A k (l : list A) i : i < k -> nth_error (firstn k l) i = nth_error l i.
  Proof.
    revert l i. induction k as [|k IH]; intros l i Hi; [lia|]. destruct l as [|x l]; [destruct i; reflexivity|].
    destruct i as [|i]; [reflexivity|]. cbn. apply IH. lia.
  Qed.

  Lemma tail_wf (X : eid -> Prop) s s' n nd k t sh names :
    wfx X s -> s_nodes s n = Some nd -> k <= length (n_edges nd) -> shape t = firstn k (shape (n_t nd)) ++ sh ->
    tail_post s s' n nd k t sh names ->
    wfx (fun e => X e \/ In e (skipn k (n_edges nd))) s'.
  Proof.
    intros W Hn Hk Ht (H1 & H2 & H3 & H4).
    pose proof (wf_rank W Hn) as Hr.
    assert (length (firstn k (n_edges nd)) = k) as Hfl by (apply firstn_length_le; exact Hk).
    assert (length (firstn k (shape (n_t nd))) = k) as Hfs by (apply firstn_length_le; unfold rank in Hr; lia).
    apply (@wfx_rename _ _ s s').
    - intros m md E. rewrite H3 in E. destruct (Nat.eqb_spec m n); [|apply (wf_rank W E)]. injection E as <-. cbn.
      unfold rank. rewrite Ht, !app_length, seq_length. lia.
    - intros m md E. rewrite H1. rewrite H3 in E. destruct (Nat.eqb_spec m n) as [->|]; [apply (wf_nn W Hn)|apply (wf_nn W E)].
    - intros e ed E. rewrite H2. rewrite H4 in E.
      destruct (Nat.leb_spec (s_ne s) e); [|lia]. destruct (Nat.ltb_spec e (s_ne s + length sh)); [lia|].
      cbn [andb] in E. pose proof (wf_ne W E). lia.
    - intros [m j] e Hs. cbn [fst snd].
      assert (forall e', e' < s_ne s -> s_edges s' e' = s_edges s e') as Hold.
      { intros e' He. rewrite H4. rewrite (proj2 (Nat.leb_nle _ _)) by lia. reflexivity. }
      assert (forall q, (fst q = n -> snd q < k) -> slot s' q = slot s q /\ dimat s' q = dimat s q) as Hq.
      { intros [a i] Hq. cbn in Hq. unfold slot, dimat. cbn [fst snd]. rewrite H3. destruct (Nat.eqb_spec a n) as [->|]; [|auto].
        specialize (Hq eq_refl). rewrite Hn. cbn [n_edges n_t]. rewrite Ht, !nth_error_app1 by lia.
        rewrite !nth_error_firstn by lia. auto. }
      destruct (Nat.eq_dec m n) as [->|Hmn].
      + destruct (Nat.ltb_spec j k) as [Hj|Hj].
        * right. rewrite (proj1 (Hq (n, j) (fun _ => Hj))) in Hs.
          destruct (wf_slot W Hs) as (ed & E & Hd & Hin & Hnd & Hall).
          exists (fun p => p), (n, j), ed, ed. split; [exact Hs|]. split; [reflexivity|]. split; [exact E|].
          split; [rewrite Hold; [exact E|apply (slot_lt W Hs)]|]. split; [auto|]. split; [rewrite map_id; reflexivity|].
          split; [auto|]. intros HX q Hin'. destruct (Hall (fun f => HX (or_introl f)) q Hin') as [K1 K2].
          destruct (Hq q) as [-> ->]; [|auto]. destruct q as [qa qi]. cbn. intros ->.
          destruct (Nat.ltb_spec qi k); [assumption|]. exfalso. apply HX. right.
          apply slot_node in K1. destruct K1 as (nd' & En & Ek). rewrite Hn in En. injection En as <-.
          rewrite <- (firstn_skipn k (n_edges nd)) in Ek. rewrite nth_error_app2 in Ek by lia. apply nth_error_In in Ek. exact Ek.
        * left. unfold slot in Hs. cbn [fst snd] in Hs. rewrite H3, Nat.eqb_refl in Hs. cbn [n_edges] in Hs.
          rewrite nth_error_app2, Hfl in Hs by lia.
          assert (j - k < length sh) as Hjl by (rewrite <- (seq_length (length sh) (s_ne s)); apply nth_error_Some; congruence).
          rewrite (nth_error_nth' _ 0) in Hs by (rewrite seq_length; exact Hjl). rewrite seq_nth in Hs by exact Hjl. injection Hs as <-.
          rewrite H4. rewrite (proj2 (Nat.leb_le _ _)), (proj2 (Nat.ltb_lt _ _)) by lia. cbn [andb]. do 2 f_equal. lia.
      + right. rewrite (proj1 (Hq (m, j) (fun Hx => match Hmn Hx with end))) in Hs.
        destruct (wf_slot W Hs) as (ed & E & Hd & Hin & Hnd & Hall).
        exists (fun p => p), (m, j), ed, ed. split; [exact Hs|]. split; [reflexivity|]. split; [exact E|].
        split; [rewrite Hold; [exact E|apply (slot_lt W Hs)]|]. split; [auto|]. split; [rewrite map_id; reflexivity|].
        split; [auto|]. intros HX q Hin'. destruct (Hall (fun f => HX (or_introl f)) q Hin') as [K1 K2].
        destruct (Hq q) as [-> ->]; [|auto]. destruct q as [qa qi]. cbn. intros ->.
        destruct (Nat.ltb_spec qi k); [assumption|]. exfalso. apply HX. right.
        apply slot_node in K1. destruct K1 as (nd' & En & Ek). rewrite Hn in En. injection En as <-.
        rewrite <- (firstn_skipn k (n_edges nd)) in Ek. rewrite nth_error_app2 in Ek by lia. apply nth_error_In in Ek. exact Ek.
    - apply (wfx_weaken (X := X)); auto.
  Qed.

  (** ** reordering *)
  Definition live_at s (n : nid) : Prop :=
    forall p e ed q, slot s p = Some e -> s_edges s e = Some ed -> In q (ends ed) -> fst q = n -> slot s q = Some e.

  Lemma wf_live_at s n : wf s -> live_at s n.
  Proof. intros W p e ed q Hp He Hq _. apply (ends_live W Hp He Hq). Qed.

  Fixpoint rmv (n : nid) (es : list eid) (i : nat) (perm : list nat) : list move :=
    match perm with [] => [] | p :: r => (nth p es 0, ((n, p), (n, i))) :: rmv n es (S i) r end.

  Lemma reorder_loop_inv n es i perm s s' (x : unit) :
    reorder_loop n es i perm s = (s', Some x) -> steps (rmv n es i perm) s = (s', Some tt) /\ Forall (fun p => p < length es) perm.
  Proof.
    revert i s. induction perm as [|p r IH]; intros i s H; cbn [reorder_loop rmv] in *.
    - injection H as <- _. split; [reflexivity|constructor].
    - destruct (nth_error es p) as [e|] eqn:E; [|discriminate].
      apply bind_inv in H. destruct H as (u & s1 & H1 & H). apply IH in H. destruct H as [H Hf].
      split; [|constructor; [apply nth_error_Some; congruence|exact Hf]].
      unfold steps. cbn [mfor fst snd]. rewrite (nth_error_nth _ _ 0 E). unfold bind. destruct u. rewrite H1. exact H.
  Qed.

  Lemma In_rmv n es i perm e o q :
    In (e, (o, q)) (rmv n es i perm) <-> exists k p, nth_error perm k = Some p /\ e = nth p es 0 /\ o = (n, p) /\ q = (n, i + k).
  Proof.
    revert i. induction perm as [|p r IH]; intros i; cbn [rmv In].
    - split; [tauto|]. intros (k & p & H & _). destruct k; discriminate.
    - rewrite IH. split.
      + intros [H|(k & p' & H1 & H2 & H3 & H4)].
        * injection H as <- <- <-. exists 0, p. rewrite Nat.add_0_r. auto.
        * exists (S k), p'. rewrite H4. repeat split; auto. f_equal. lia.
      + intros (k & p' & H1 & H2 & H3 & H4). destruct k as [|k].
        * injection H1 as <-. left. rewrite H2, H3, H4, Nat.add_0_r. reflexivity.
        * right. exists k, p'. repeat split; auto. rewrite H4. f_equal. lia.
  Qed.

  Lemma rmv_olds n es i perm : map (fun m => fst (snd m)) (rmv n es i perm) = map (fun p => (n, p)) perm.
  Proof. revert i. induction perm as [|p r IH]; intros i; cbn; [reflexivity|]. rewrite IH. reflexivity. Qed.
  Lemma rmv_news n es i perm : map (fun m => snd (snd m)) (rmv n es i perm) = map (fun k => (n, k)) (seq i (length perm)).
  Proof. revert i. induction perm as [|p r IH]; intros i; cbn; [reflexivity|]. rewrite IH. reflexivity. Qed.

  Lemma NoDup_map_filter A B (f : A -> B) p l : NoDup (map f l) -> NoDup (map f (filter p l)).
  Proof.
    induction l as [|x r IH]; cbn; [auto|]. intros H. apply NoDup_cons_iff in H. destruct H as [H1 H2].
    destruct (p x); cbn; [|auto]. constructor; [|auto]. intros K. apply H1. apply in_map_iff in K.
    destruct K as (y & E & Hy). apply in_map_iff. exists y. split; [exact E|]. apply filter_In in Hy. tauto.
  Qed.

  Definition reorder_map (n : nid) (perm : list nat) (p : nid * nat) : nid * nat :=
    if Nat.eqb (fst p) n then (n, nindex (snd p) perm) else p.

  Lemma nindex_nth_error l x : In x l -> nth_error l (nindex x l) = Some x.
  Proof.
    intros H. rewrite (nth_error_nth' _ 0) by (apply index_of_lt; exact H). f_equal. apply nth_index_of. exact H.
  Qed.

  Definition reorder_post s s' (n : nid) (nd : node) (perm names : list nat) : Prop :=
    s_nn s' = s_nn s /\ s_ne s' = s_ne s /\
    (forall m, s_nodes s' m = if Nat.eqb m n then Some (Node (transpose (n_t nd) perm) (gather 0 (n_edges nd) perm) names) else s_nodes s m) /\
    (forall e, s_edges s' e = option_map (app_moves (moves_on e (rmv n (n_edges nd) 0 perm))) (s_edges s e)).

  Lemma reorder_wf (X : eid -> Prop) s s' n nd perm names :
    wfx X s -> live_at s n -> s_nodes s n = Some nd -> is_perm (length (n_edges nd)) perm ->
    reorder_post s s' n nd perm names ->
    wfx X s' /\
    (forall e ed, s_edges s e = Some ed -> (exists p, slot s p = Some e) ->
       exists ed', s_edges s' e = Some ed' /\ Permutation (ends ed') (map (reorder_map n perm) (ends ed)) /\ (e_dis ed = false -> e_dis ed' = false)) /\
    (forall e, (forall k, slot s (n, k) <> Some e) -> s_edges s' e = s_edges s e).
  Proof.
    intros W Hlive Hn Hp (H1 & H2 & H3 & H4).
    pose proof (wf_rank W Hn) as Hr.
    set (sg := reorder_map n perm). set (es := n_edges nd) in *.
    assert (NoDup perm) as Np by (apply (is_perm_NoDup Hp)).
    assert (forall i, In i perm <-> i < length es) as Ip by (intros i; apply (is_perm_In i Hp)).
    assert (length perm = length es) as Lp by (apply (is_perm_length Hp)).
    assert (forall p e, slot s p = Some e -> exists ed ed',
       s_edges s e = Some ed /\ s_edges s' e = Some ed' /\ (e_dis ed = false -> e_dis ed' = false) /\
       Permutation (ends ed') (map sg (ends ed)) /\
       (forall q q', In q (ends ed) -> In q' (ends ed) -> sg q = sg q' -> q = q') /\
       (forall q, In q (ends ed) -> slot s q = Some e -> slot s' (sg q) = Some e /\ dimat s' (sg q) = dimat s q)) as Hsurv.
    { intros p e Hs. destruct (wf_slot W Hs) as (ed & E & Hd & Hin & Hnd & Hall).
      exists ed. rewrite H4, E. cbn [option_map]. set (ml := moves_on e _). exists (app_moves ml ed).
      assert (forall m, In m ml <-> exists k j, nth_error perm k = Some j /\ e = nth j es 0 /\ m = ((n, j), (n, k))) as Hml.
      { intros m. unfold ml, moves_on. rewrite in_map_iff. split.
        - intros ([f [o q]] & <- & Hm). apply filter_In in Hm. destruct Hm as [Hm Hf]. cbn in Hf. apply Nat.eqb_eq in Hf. subst f.
          apply In_rmv in Hm. destruct Hm as (k & j & A & B & -> & ->). exists k, j. auto.
        - intros (k & j & A & B & ->). exists (e, ((n, j), (n, k))). split; [reflexivity|]. apply filter_In.
          split; [|cbn; apply Nat.eqb_refl]. apply In_rmv. exists k, j. auto. }
      assert (forall j, In (n, j) (ends ed) -> j < length es /\ e = nth j es 0) as Hlv.
      { intros j Hj. assert (slot s (n, j) = Some e) as Sj by (apply (Hlive p e ed (n, j) Hs E Hj); reflexivity).
        apply slot_node in Sj. destruct Sj as (nd' & En & Ek). rewrite Hn in En. injection En as <-. fold es in Ek.
        split; [apply nth_error_Some; congruence|]. symmetry. apply nth_error_nth. exact Ek. }
      assert (forall j, e = nth j es 0 -> j < length es -> In (n, j) (ends ed)) as Hlv'.
      { intros j Ej Hj. assert (slot s (n, j) = Some e) as Sj by (apply (slot_intro Hn); fold es; rewrite Ej; apply nth_error_nth'; exact Hj).
        destruct (wf_slot W Sj) as (ed'' & E'' & _ & Hin'' & _). rewrite E in E''. injection E'' as <-. exact Hin''. }
      assert (forall q q', In q (ends ed) -> In q' (ends ed) -> sg q = sg q' -> q = q') as Hinj.
      { intros [a i] [b j] Hq Hq' Es. unfold sg, reorder_map in Es. cbn [fst snd] in Es.
        destruct (Nat.eqb_spec a n) as [->|], (Nat.eqb_spec b n) as [->|]; try congruence.
        injection Es as Es. f_equal. destruct (Hlv i Hq) as [Hi _]. destruct (Hlv j Hq') as [Hj _].
        apply Ip in Hi, Hj. rewrite <- (nth_index_of Nat.eq_dec i perm 0 Hi), <- (nth_index_of Nat.eq_dec j perm 0 Hj), Es. reflexivity. }
      destruct (@app_moves_ends ed ml sg) as [HP HD].
      - exact Hnd.
      - unfold ml, moves_on. rewrite map_map. apply NoDup_map_filter. rewrite rmv_olds. apply NoDup_map_in; [congruence|exact Np].
      - unfold ml, moves_on. rewrite map_map. apply NoDup_map_filter. rewrite rmv_news. apply NoDup_map_in; [congruence|apply seq_NoDup].
      - intros q Hq. apply in_map_iff in Hq. destruct Hq as (m & <- & Hm). apply Hml in Hm. destruct Hm as (k & j & A & B & ->).
        cbn. apply Hlv'; [exact B|]. apply Ip. apply (nth_error_In _ _ A).
      - intros q Hq Hqe. apply in_map_iff in Hq. destruct Hq as (m & <- & Hm). apply Hml in Hm. destruct Hm as (k & j & A & B & ->).
        cbn in *. destruct (Hlv k Hqe) as [Hk Ek]. apply in_map_iff.
        exists ((n, k), (n, nindex k perm)). split; [reflexivity|]. apply Hml. exists (nindex k perm), k. split; [|auto].
        apply nindex_nth_error. apply Ip. exact Hk.
      - intros m Hm. apply Hml in Hm. destruct Hm as (k & j & A & B & ->). cbn [fst snd]. unfold sg, reorder_map. cbn [fst snd].
        rewrite Nat.eqb_refl. f_equal. apply (proj1 (NoDup_nth_error perm) Np).
        + apply index_of_lt. apply (nth_error_In _ _ A).
        + rewrite nindex_nth_error by (apply (nth_error_In _ _ A)). symmetry. exact A.
      - intros [a i] Hq Hnm. unfold sg, reorder_map. cbn [fst snd]. destruct (Nat.eqb_spec a n) as [->|]; [|reflexivity].
        exfalso. apply Hnm. destruct (Hlv i Hq) as [Hi Ei]. apply in_map_iff. exists ((n, i), (n, nindex i perm)).
        split; [reflexivity|]. apply Hml. exists (nindex i perm), i. split; [|auto]. apply nindex_nth_error. apply Ip. exact Hi.
      - split; [reflexivity|]. split; [reflexivity|]. split; [exact HD|]. split; [exact HP|]. split; [exact Hinj|].
        intros [a i] Hq Hsq. unfold sg, reorder_map. cbn [fst snd]. destruct (Nat.eqb_spec a n) as [->|Han].
        + destruct (Hlv i Hq) as [Hi Ei]. apply Ip in Hi. unfold slot, dimat. cbn [fst snd]. rewrite H3, Nat.eqb_refl, Hn.
          cbn [n_edges n_t]. rewrite nth_error_gather, (nindex_nth_error Hi). split; [f_equal; symmetry; exact Ei|].
          cbn [transpose shape]. rewrite nth_error_gather, (nindex_nth_error Hi). symmetry. apply nth_error_nth'.
          apply Ip in Hi. unfold rank in Hr. fold es in Hr. lia.
        + unfold slot, dimat. cbn [fst snd]. rewrite H3. destruct (Nat.eqb_spec a n); [contradiction|].
          unfold slot in Hsq. cbn [fst snd] in Hsq. auto. }
    split; [|split].
    - apply (@wfx_rename _ X s s').
      + intros m md E. rewrite H3 in E. destruct (Nat.eqb_spec m n); [|apply (wf_rank W E)]. injection E as <-. cbn.
        unfold rank. cbn. rewrite !gather_length. reflexivity.
      + intros m md E. rewrite H1. rewrite H3 in E. destruct (Nat.eqb_spec m n) as [->|]; [apply (wf_nn W Hn)|apply (wf_nn W E)].
      + intros e ed E. rewrite H2. rewrite H4 in E. destruct (s_edges s e) as [ed0|] eqn:E0; [apply (wf_ne W E0)|discriminate].
      + intros [m k] e Hs. right.
        assert (exists p0, slot s p0 = Some e /\ (m, k) = sg p0) as (p0 & Hp0 & Esg).
        { unfold slot in Hs. cbn [fst snd] in Hs. rewrite H3 in Hs. destruct (Nat.eqb_spec m n) as [->|Hmn].
          - cbn [n_edges] in Hs. rewrite nth_error_gather in Hs. destruct (nth_error perm k) as [j|] eqn:Ej; [|discriminate].
            injection Hs as Hs. pose proof (nth_error_In _ _ Ej) as Hj. pose proof Hj as Hj'. apply Ip in Hj'. exists (n, j). split.
            + apply (slot_intro Hn). fold es. rewrite <- Hs. apply nth_error_nth'. exact Hj'.
            + unfold sg, reorder_map. cbn [fst snd]. rewrite Nat.eqb_refl. f_equal. apply (proj1 (NoDup_nth_error perm) Np).
              * apply nth_error_Some. congruence.
              * rewrite (nindex_nth_error Hj). exact Ej.
          - exists (m, k). split; [exact Hs|]. unfold sg, reorder_map. cbn [fst snd]. destruct (Nat.eqb_spec m n); [contradiction|reflexivity]. }
        destruct (Hsurv p0 e Hp0) as (ed & ed' & G1 & G2 & G3 & G4 & G5 & G6).
        exists sg, p0, ed, ed'. split; [exact Hp0|]. split; [exact Esg|]. split; [exact G1|]. split; [exact G2|].
        split; [exact G3|]. split; [exact G4|]. split; [exact G5|].
        intros HX q Hq. apply G6; [exact Hq|]. destruct (wf_slot W Hp0) as (ed2 & K1 & _ & _ & _ & K2). rewrite G1 in K1. injection K1 as <-.
        apply K2; assumption.
      + exact W.
    - intros e ed E (p & Hs). destruct (Hsurv p e Hs) as (ed0 & ed' & G1 & G2 & G3 & G4 & _). rewrite E in G1. injection G1 as <-.
      exists ed'. auto.
    - intros e He. rewrite H4. assert (moves_on e (rmv n es 0 perm) = []) as Em.
      { destruct (moves_on e (rmv n es 0 perm)) as [|m r] eqn:Em; [reflexivity|exfalso].
        assert (In m (moves_on e (rmv n es 0 perm))) as Hm by (rewrite Em; left; reflexivity).
        unfold moves_on in Hm. apply in_map_iff in Hm. destruct Hm as ([f [o q]] & _ & Hm).
        apply filter_In in Hm. destruct Hm as [Hm Hf]. cbn in Hf. apply Nat.eqb_eq in Hf. subst f.
        apply In_rmv in Hm. destruct Hm as (k & j & A & B & _ & _). apply (He j). apply (slot_intro Hn). fold es.
        rewrite B. apply nth_error_nth'. apply Ip. apply (nth_error_In _ _ A). }
      rewrite Em. destruct (s_edges s e); reflexivity.
  Qed.

  Lemma finish_reorder_inv n t es names perm s s' (x : unit) :
    finish_reorder n t es names perm s = (s', Some x) ->
    s_nn s' = s_nn s /\ s_ne s' = s_ne s /\ s_edges s' = s_edges s /\
    (forall m, s_nodes s' m = if Nat.eqb m n then Some (Node t es (gather 0 names perm)) else s_nodes s m).
  Proof.
    unfold finish_reorder. intros H. apply bind_inv in H. destruct H as (u & s1 & H1 & H). apply set_node_inv in H1. subst s1.
    apply bind_inv in H. destruct H as (u' & s1 & H1 & H). apply guard_inv in H1. destruct H1 as [_ ->].
    apply set_node_inv in H. subst s'. unfold with_node. cbn. repeat split.
    intros m. unfold upd. destruct (Nat.eqb_spec m n), (Nat.eq_dec m n); congruence.
  Qed.

  Lemma reorder_axes_inv n perm s s' (x : unit) :
    reorder_axes n perm s = (s', Some x) ->
    exists nd, s_nodes s n = Some nd /\ is_perm (length (n_edges nd)) perm /\
               reorder_post s s' n nd perm (gather 0 (n_names nd) perm).
  Proof.
    unfold reorder_axes. intros H. apply bind_inv in H. destruct H as (nd & s1 & H1 & H). apply get_node_inv in H1. destruct H1 as [-> Hn].
    apply bind_inv in H. destruct H as (u & s1 & H1 & H). apply guard_inv in H1. destruct H1 as [Hg ->].
    apply andb_true_iff in Hg. destruct Hg as [Hg _]. apply is_permb_spec in Hg.
    apply bind_inv in H. destruct H as (u' & s1 & H1 & H). apply reorder_loop_inv in H1. destruct H1 as [H1 _].
    apply steps_inv in H1. destruct H1 as (A1 & A2 & A3 & A4).
    apply finish_reorder_inv in H. destruct H as (B1 & B2 & B3 & B4).
    exists nd. split; [exact Hn|]. split; [exact Hg|]. unfold reorder_post. rewrite B1, B2, B3.
    repeat split; auto. intros m. rewrite B4, A1. reflexivity.
  Qed.

  Lemma reorder_edges_inv n order s s' (x : unit) :
    reorder_edges n order s = (s', Some x) ->
    exists nd, s_nodes s n = Some nd /\ let perm := map (fun e => nindex e (n_edges nd)) order in
       is_perm (length (n_edges nd)) perm /\ order = gather 0 (n_edges nd) perm /\
       reorder_post s s' n nd perm (gather 0 (n_names nd) perm).
  Proof.
    unfold reorder_edges. intros H. apply bind_inv in H. destruct H as (nd & s1 & H1 & H). apply get_node_inv in H1. destruct H1 as [-> Hn].
    apply bind_inv in H. destruct H as (u & s1 & H1 & H). apply guard_inv in H1. destruct H1 as [Hg ->].
    apply bind_inv in H. destruct H as (u1 & s1 & H1 & H). apply guard_inv in H1. destruct H1 as [_ ->].
    apply bind_inv in H. destruct H as (u2 & s1 & Hc & H).
    assert (s1 = s) as ->.
    { clear - Hc. revert s s1 Hc. induction order as [|c r IH]; intros s s1 H; cbn [check_no_trace] in H.
      - injection H as <- _. reflexivity.
      - apply bind_inv in H. destruct H as (ed & s2 & H1 & H). apply get_edge_inv in H1. destruct H1 as (-> & _).
        apply bind_inv in H. destruct H as (u & s2 & H3 & H). apply guard_inv in H3. destruct H3 as [_ ->]. apply IH in H. exact H. }
    cbn zeta in H.
    apply bind_inv in H. destruct H as (u' & s1 & H1 & H). apply reorder_loop_inv in H1. destruct H1 as [H1 _].
    apply steps_inv in H1. destruct H1 as (A1 & A2 & A3 & A4).
    apply bind_inv in H. destruct H as (u3 & s2 & H1 & H). apply guard_inv in H1. destruct H1 as [Hp ->].
    apply andb_true_iff in Hp. destruct Hp as [Hp Hl]. apply is_permb_spec in Hp. apply Nat.eqb_eq in Hl. rewrite Hl in Hp.
    apply finish_reorder_inv in H. destruct H as (B1 & B2 & B3 & B4).
    exists nd. split; [exact Hn|]. cbn zeta. split; [exact Hp|].
    assert (order = gather 0 (n_edges nd) (map (fun e => nindex e (n_edges nd)) order)) as Eo.
    { unfold gather. rewrite map_map. rewrite <- (map_id order) at 1. apply map_ext_in. intros e He. symmetry. apply nth_index_of.
      rewrite forallb_forall in Hg. specialize (Hg e He). apply mem_In. exact Hg. }
    split; [exact Eo|]. unfold reorder_post. rewrite B1, B2, B3.
    repeat split; auto. intros m. rewrite B4, A1. rewrite <- Eo. reflexivity.
  Qed.
End GO.
