(** * GraphOuter: contract, outer_product and trace contraction *)
From Verif Require Import Prelude Algebra Tensor TensorFacts Einsum EinsumFacts NetworkFacts Graph GraphBase GraphContract GraphOps GraphValue.
Set Implicit Arguments.
Unset Strict Implicit.

Section GX.
  Context {R : csr}.
  Notation st := (@st R).
  Notation M := (@M R).
  Notation node := (@node R).
  Implicit Types (s : st) (e : eid).

  Lemma free_axes_nil n : free_axes n [] = seq 0 n.
  Proof.
    unfold free_axes. generalize (seq 0 n) as l. induction l as [|x r IH]; [reflexivity|]. cbn. f_equal. exact IH.
  Qed.
  Lemma free_labels_nil (es : list nat) : free_labels 0 es [] = es.
  Proof. unfold free_labels. rewrite free_axes_nil. apply gather_seq. Qed.

  (** [contracted s s' olds N]: the nodes [olds] were replaced by the new node N *)
  Record contracted s s' (olds : list nid) (N : nid) : Prop := {
    ct_wf : wf s';
    ct_new : s_nodes s N = None;
    ct_next : N = s_nn s /\ s_nn s' = S (s_nn s);
    ct_node : exists nd', s_nodes s' N = Some nd';
    ct_others : forall m, ~ In m olds -> m <> N -> s_nodes s' m = s_nodes s m;
    ct_value : forall S a, NoDup (olds ++ S) -> ~ In N S -> open_ok s (olds ++ S) a -> netval s (olds ++ S) a = netval s' (N :: S) a;
    ct_perm : exists cut, Permutation (net_labels (net_of s olds)) (cut ++ cut ++ net_labels (net_of s' [N]));
    ct_fits : fits (edim s) (fac s' N)
  }.

  (** ** contract on an ordinary edge *)
  Lemma joins_sym ed n1 n2 : joins ed n1 n2 = joins ed n2 n1.
  Proof.
    unfold joins. destruct (e_2 ed) as [[m a]|]; [|reflexivity]. f_equal. apply orb_comm.
  Qed.

  Lemma two_ends s n1 n2 e ed : wf s -> n1 <> n2 -> (exists p, slot s p = Some e) -> s_edges s e = Some ed -> joins ed n1 n2 = true ->
    exists i j, slot s (n1, i) = Some e /\ slot s (n2, j) = Some e /\ orient n1 s e = (i, j) /\
      (forall k, slot s (n1, k) = Some e -> k = i) /\ (forall k, slot s (n2, k) = Some e -> k = j).
  Proof.
    intros W Hne (p & Hp) E J. unfold joins in J. apply andb_true_iff in J. destruct J as [_ J].
    destruct (e_2 ed) as [[m2 a2]|] eqn:E2; [|discriminate].
    assert (forall q, In q (ends ed) -> slot s q = Some e) as Hl by (intros q Hq; apply (ends_live W Hp E Hq)).
    assert (forall q, slot s q = Some e -> In q (ends ed)) as Hl' by (intros q Hq; apply (live_in_ends W Hq E)).
    unfold ends in Hl, Hl'. rewrite E2 in Hl, Hl'.
    unfold orient. rewrite E, E2.
    apply orb_true_iff in J. destruct J as [J|J]; apply andb_true_iff in J; destruct J as [J1 J2]; apply Nat.eqb_eq in J1, J2.
    - exists (e_a1 ed), a2. rewrite J1, J2 in *. rewrite Nat.eqb_refl.
      split; [apply Hl; left; reflexivity|]. split; [apply Hl; right; left; reflexivity|]. split; [reflexivity|].
      split; intros k Hk; apply Hl' in Hk; destruct Hk as [K|[K|[]]]; congruence.
    - exists a2, (e_a1 ed). rewrite J1, J2 in *. destruct (Nat.eqb_spec n2 n1); [congruence|].
      split; [apply Hl; right; left; reflexivity|]. split; [apply Hl; left; reflexivity|]. split; [reflexivity|].
      split; intros k Hk; apply Hl' in Hk; destruct Hk as [K|[K|[]]]; congruence.
  Qed.

  Lemma contract_pair e ed m2 a2 names s s' N :
    wf s -> (exists p, slot s p = Some e) -> s_edges s e = Some ed -> e_2 ed = Some (m2, a2) -> e_n1 ed <> m2 ->
    contract e names s = (s', Some N) ->
    contracted s s' [e_n1 ed; m2] N /\
    exists d1 d2 nms, s_nodes s (e_n1 ed) = Some d1 /\ s_nodes s m2 = Some d2 /\
      s_nodes s' N = Some (Node (tensordot (n_t d1) (n_t d2) [e_a1 ed] [a2]) (kept_of [e] (n_edges d1) ++ kept_of [e] (n_edges d2)) nms).
  Proof.
    intros W Hlive E E2 Hne H. unfold contract in H.
    apply bind_inv in H. destruct H as (ed' & s1 & H1 & H). apply get_edge_inv in H1. destruct H1 as (-> & H1 & Hdis).
    rewrite E in H1. injection H1 as <-. rewrite E2 in H.
    destruct (Nat.eqb_spec (e_n1 ed) m2); [contradiction|].
    apply bind_inv in H. destruct H as (d1 & s1 & H1 & H). apply get_node_inv in H1. destruct H1 as [-> Hn1].
    apply bind_inv in H. destruct H as (d2 & s1 & H1 & H). apply get_node_inv in H1. destruct H1 as [-> Hn2].
    apply bind_inv in H. destruct H as (N' & s1 & Hnew & H).
    apply bind_inv in H. destruct H as (u & s2 & Hrem & H). injection H as <- <-.
    assert (joins ed (e_n1 ed) m2 = true) as J.
    { unfold joins. rewrite Hdis, E2, !Nat.eqb_refl. reflexivity. }
    destruct (two_ends W n Hlive E J) as (i & j & Si & Sj & Or & Ui & Uj).
    unfold orient in Or. rewrite E, E2, Nat.eqb_refl in Or. injection Or as <- <-.
    apply slot_node in Si, Sj. destruct Si as (d1' & K1 & Si). rewrite Hn1 in K1. injection K1 as <-.
    destruct Sj as (d2' & K1 & Sj). rewrite Hn2 in K1. injection K1 as <-.
    pose proof (nth_error_nth _ _ 0 Si) as Gi. pose proof (nth_error_nth _ _ 0 Sj) as Gj.
    destruct (new_node_wf W Hnew) as (W1 & Hlon & EN & Hnone & Hnn & (nms & Hlen & _ & _ & HN) & Hold & _).
    destruct (@pair_step _ s s1 s2 (e_n1 ed) m2 N' names [e] d1 d2 [e_a1 ed] [a2] W Hn1 Hn2 Hne) as (P1 & P2 & P3 & P4 & (nms' & P5 & _) & P6 & P7 & P8 & P9 & P10).
    - intros k [<-|[]]. apply nth_error_Some. congruence.
    - intros k [<-|[]]. apply nth_error_Some. congruence.
    - cbn. congruence.
    - cbn. rewrite Gi. reflexivity.
    - repeat constructor. intros [].
    - intros k Hk [K|[]]. left. symmetry. apply Ui. apply (slot_intro Hn1). rewrite K. apply nth_error_nth'. exact Hk.
    - intros k Hk [K|[]]. left. symmetry. apply Uj. apply (slot_intro Hn2). rewrite K. apply nth_error_nth'. exact Hk.
    - exact Hnew.
    - intros Hl dN HdN HeN.
      assert (N' <> e_n1 ed) by (intros K; rewrite K in Hnone; congruence).
      assert (N' <> m2) by (intros K; rewrite K in Hnone; congruence).
      apply (@remove_edges_inv _ [e] (e_n1 ed) m2 N' s1 s2 u d1 d2 dN); auto.
      + rewrite Hold; auto.
      + rewrite Hold; auto.
      + rewrite HeN. exact Hl.
    - split; [|exists d1, d2, nms'; rewrite <- P7; auto].
      split; auto.
      + eauto.
      + intros m Hm. apply P6; intros ->; apply Hm; cbn; auto.
      + intros S a HS HNS _. apply P8; assumption.
  Qed.

  (** ** outer_product *)
  Lemma move_all_inv old new i off es s s' (x : unit) :
    move_all old new i off es s = (s', Some x) -> steps (mvs [] old new i (i + off) es) s = (s', Some tt).
  Proof.
    revert i s. induction es as [|e r IH]; intros i s H; cbn [move_all mvs] in *.
    - injection H as <- _. reflexivity.
    - apply bind_inv in H. destruct H as (u & s1 & H1 & H). apply IH in H. cbn [mem existsb].
      unfold steps. cbn [mfor fst snd]. unfold bind. rewrite H1. exact H.
  Qed.

  Lemma kept_nil es : kept_of [] es = es.
  Proof. unfold kept_of. induction es as [|x r IH]; [reflexivity|]. cbn. f_equal. exact IH. Qed.

  Lemma outer_step n1 n2 names s s' N :
    wf s -> n1 <> n2 -> outer_product n1 n2 names s = (s', Some N) ->
    contracted s s' [n1; n2] N /\
    exists d1 d2 nms, s_nodes s n1 = Some d1 /\ s_nodes s n2 = Some d2 /\
      s_nodes s' N = Some (Node (outer (n_t d1) (n_t d2)) (n_edges d1 ++ n_edges d2) nms).
  Proof.
    intros W Hne H. unfold outer_product in H.
    apply bind_inv in H. destruct H as (d1 & s1 & H1 & H). apply get_node_inv in H1. destruct H1 as [-> Hn1].
    apply bind_inv in H. destruct H as (d2 & s1 & H1 & H). apply get_node_inv in H1. destruct H1 as [-> Hn2].
    apply bind_inv in H. destruct H as (N' & s1 & Hnew & H).
    destruct (new_node_wf W Hnew) as (W1 & Hlon & EN & Hnone & Hnn & (nms & Hlen & _ & _ & HN) & Hold & _).
    assert (N' <> n1) as N1 by (intros K; rewrite K in Hnone; congruence).
    assert (N' <> n2) as N2 by (intros K; rewrite K in Hnone; congruence).
    assert (s_nodes s1 n1 = Some d1) as Hn1' by (rewrite Hold; auto).
    assert (s_nodes s1 n2 = Some d2) as Hn2' by (rewrite Hold; auto).
    pose proof (wf_rank W Hn1) as R1. pose proof (wf_rank W Hn2) as R2.
    set (dN := Node (outer (n_t d1) (n_t d2)) (seq (s_ne s) (rank (outer (n_t d1) (n_t d2)))) nms) in *.
    assert (length (n_edges dN) = length (n_edges d1) + length (n_edges d2)) as HlN.
    { cbn. rewrite seq_length. unfold rank in *. cbn. rewrite app_length. lia. }
    apply bind_inv in H. destruct H as (u1 & s2 & H1 & H). apply move_all_inv in H1. apply steps_inv in H1. destruct H1 as (A1 & A2 & A3 & A4).
    apply bind_inv in H. destruct H as (u2 & s3 & H1 & H). apply move_all_inv in H1. apply steps_inv in H1. destruct H1 as (B1 & B2 & B3 & B4).
    apply bind_inv in H. destruct H as (u3 & s4 & H1 & H).
    apply (@add_all_inv _ N' 0 _ true s3 s4 u3 dN) in H1; [|rewrite B1, A1; exact HN|rewrite app_length; cbn [Nat.add]; lia].
    cbn [firstn app] in H1. destruct H1 as (C1 & C2 & C3 & C4).
    apply bind_inv in H. destruct H as (u4 & s5 & H1 & H). apply (@fresh_edges_inv _ n1 s4 s5 u4 d1) in H1.
    2:{ rewrite C1. destruct (Nat.eqb_spec n1 N'); [congruence|]. rewrite B1, A1. exact Hn1'. }
    destruct H1 as (D1 & D2 & D3 & D4).
    apply bind_inv in H. destruct H as (u5 & s6 & H1 & H). apply (@fresh_edges_inv _ n2 s5 s6 u5 d2) in H1.
    2:{ rewrite D1. destruct (Nat.eqb_spec n2 n1); [congruence|]. rewrite C1.
        destruct (Nat.eqb_spec n2 N'); [congruence|]. rewrite B1, A1. exact Hn2'. }
    destruct H1 as (E1 & E2 & E3 & E4). injection H as <- <-.
    assert (s_ne s4 = s_ne s1) as Ene by congruence. rewrite D3, Ene in *.
    assert (remove_post [] n1 n2 N' s1 s6 d1 d2 dN) as Post.
    { unfold remove_post. cbn zeta. rewrite !kept_nil. split; [exact Hne|]. split; [intros e []|].
      split; [congruence|]. split; [congruence|]. split; [|split; [|split; [|split]]].
      - intros m. rewrite E1, D1, C1, B1, A1. destruct (Nat.eqb_spec m n1) as [->|]; [|reflexivity].
        destruct (Nat.eqb_spec n1 n2); [congruence|reflexivity].
      - intros e He _. rewrite E4. rewrite (proj2 (Nat.leb_nle _ e)) by lia. cbn [andb]. rewrite D4.
        rewrite (proj2 (Nat.leb_nle _ e)) by lia. cbn [andb]. rewrite C2, B4, A4. cbn [Nat.add]. rewrite R1.
        unfold moves_on. rewrite filter_app, map_app. unfold app_moves.
        destruct (s_edges s1 e); cbn [option_map]; [|reflexivity]. rewrite fold_left_app. reflexivity.
      - intros j Hj _. rewrite E4.
        rewrite (proj2 (Nat.leb_nle (s_ne s1 + length (n_edges d1)) (s_ne s1 + j))) by lia. cbn [andb]. rewrite D4.
        rewrite (proj2 (Nat.leb_le (s_ne s1) (s_ne s1 + j))) by lia.
        rewrite (proj2 (Nat.ltb_lt (s_ne s1 + j) (s_ne s1 + length (n_edges d1)))) by lia. cbn [andb]. do 2 f_equal. lia.
      - intros j Hj _. rewrite E4.
        rewrite (proj2 (Nat.leb_le (s_ne s1 + length (n_edges d1)) (s_ne s1 + length (n_edges d1) + j))) by lia.
        rewrite (proj2 (Nat.ltb_lt (s_ne s1 + length (n_edges d1) + j) (s_ne s1 + length (n_edges d1) + length (n_edges d2)))) by lia. cbn [andb].
        do 2 f_equal. lia.
      - intros e ed He.
        destruct (Nat.ltb_spec e (s_ne s1 + length (n_edges d1) + length (n_edges d2))) as [|Hge]; [left; assumption|right].
        rewrite E4 in He.
        rewrite (proj2 (Nat.ltb_nlt e (s_ne s1 + length (n_edges d1) + length (n_edges d2)))) in He by lia.
        rewrite andb_false_r in He. rewrite D4 in He.
        rewrite (proj2 (Nat.ltb_nlt e (s_ne s1 + length (n_edges d1)))) in He by lia.
        rewrite andb_false_r in He. rewrite C2, B4, A4 in He.
        destruct (s_edges s1 e) as [ed0|]; [eauto|discriminate]. }
    destruct (@remove_post_wf _ [] n1 n2 N' s1 s6 d1 d2 dN [] [] W1 Hlon Hn1' Hn2' HN N1 N2) as (W2 & H2N & H2old & H2nn & K1 & K2); auto.
    { intros j _. reflexivity. } { intros j _. reflexivity. }
    { cbn [n_t dN outer shape]. rewrite !free_axes_nil. unfold rank. rewrite !gather_seq. reflexivity. }
    rewrite !free_labels_nil in H2N. cbn [n_t dN n_names] in H2N.
    assert (forall m, m <> n1 -> m <> n2 -> m <> N' -> s_nodes s6 m = s_nodes s m) as Hoth
      by (intros m M1 M2 M3; rewrite H2old, Hold by assumption; reflexivity).
    split; [|exists d1, d2, nms; auto].
    split; auto.
    - split; congruence.
    - eauto.
    - intros m Hm. apply Hoth; intros ->; apply Hm; cbn; auto.
    - intros S a HS HNS _. cbn [app] in *. apply NoDup_cons_iff in HS. destruct HS as [HS1 HS]. apply NoDup_cons_iff in HS. destruct HS as [HS2 HS].
      assert (forall m, In m S -> s_nodes s6 m = s_nodes s m) as Hm.
      { intros m Hm. apply Hoth; intros ->; try contradiction. apply HS1. right. exact Hm. }
      rewrite (@netval_dim _ s6 (N' :: S) (edim s)); [|exact W2|].
      2:{ intros m [<-|Hm']; [|unfold fac; rewrite (Hm m Hm'); apply (fac_fits m W)].
          rewrite (fac_node H2N). cbn [n_t n_edges]. apply fits_outer; [apply (wf_fits W Hn1)|apply (wf_fits W Hn2)]. }
      unfold netval. cbn [net_of map]. fold (net_of s S) (net_of s6 S). rewrite (net_of_ext Hm).
      rewrite (fac_node Hn1), (fac_node Hn2), (fac_node H2N). cbn [n_t n_edges].
      apply value_outer; [apply (wf_fits W Hn1)|reflexivity].
    - exists []. cbn [net_of map]. rewrite !net_labels_cons, (fac_node Hn1), (fac_node Hn2), (fac_node H2N).
      cbn [snd net_labels flat_map n_edges]. rewrite !app_nil_r. reflexivity.
    - rewrite (fac_node H2N). cbn [n_t n_edges]. apply fits_outer; [apply (wf_fits W Hn1)|apply (wf_fits W Hn2)].
  Qed.

  (** ** trace contraction *)
  Definition shifted (n N : nid) (x y : nat) (p : nid * nat) : nid * nat :=
    if Nat.eqb (fst p) n then (N, reduce_axis x y (snd p)) else p.

  Definition shift_ed (n N : nid) (x y : nat) (ed : edge) : edge :=
    let p1 := shifted n N x y (e_n1 ed, e_a1 ed) in
    Edge (fst p1) (snd p1) (option_map (shifted n N x y) (e_2 ed)) false.

  Lemma shift_ed_ends n N x y ed : ends (shift_ed n N x y ed) = map (shifted n N x y) (ends ed).
  Proof.
    unfold ends, shift_ed. cbn. rewrite <- surjective_pairing. f_equal. destruct (e_2 ed); reflexivity.
  Qed.

  Lemma shift_edge_inv f n N x y s s' (u : unit) :
    shift_edge f n N x y s = (s', Some u) -> exists ed, s_edges s f = Some ed /\ e_dis ed = false /\ s' = with_edge s f (shift_ed n N x y ed).
  Proof.
    unfold shift_edge. intros H. apply bind_inv in H. destruct H as (ed & s1 & H1 & H). apply get_edge_inv in H1. destruct H1 as (-> & H1 & H2).
    apply set_edge_inv in H. exists ed. split; [exact H1|]. split; [exact H2|]. subst s'. f_equal.
    unfold shift_ed, shifted. cbn [fst snd]. destruct (e_2 ed) as [[n2 a2]|]; cbn [option_map fst snd];
      destruct (Nat.eqb (e_n1 ed) n); try destruct (Nat.eqb n2 n); reflexivity.
  Qed.

  Lemma shift_all_inv l n N x y s s' (u : unit) :
    NoDup l -> mfor l (fun f => shift_edge f n N x y) s = (s', Some u) ->
    s_nodes s' = s_nodes s /\ s_nn s' = s_nn s /\ s_ne s' = s_ne s /\
    (forall e, s_edges s' e = if mem e l then option_map (shift_ed n N x y) (s_edges s e) else s_edges s e).
  Proof.
    revert s. induction l as [|f r IH]; intros s HN H; cbn [mfor] in H.
    - injection H as <- _. repeat split.
    - apply bind_inv in H. destruct H as (u0 & s1 & H1 & H). apply shift_edge_inv in H1. destruct H1 as (ed & Ef & _ & ->).
      apply NoDup_cons_iff in HN. destruct HN as [HN1 HN]. apply IH in H; [|exact HN].
      unfold with_edge in H. cbn [s_nodes s_edges s_nn s_ne] in H. destruct H as (-> & -> & -> & H). repeat split.
      intros e. rewrite H. unfold upd. cbn [mem existsb]. fold (mem e r).
      destruct (Nat.eq_dec e f) as [->|Hne].
      + rewrite Nat.eqb_refl, Ef. cbn [orb option_map]. apply mem_nIn in HN1. rewrite HN1. reflexivity.
      + destruct (Nat.eqb_spec e f); [contradiction|]. reflexivity.
  Qed.

  Lemma reduce_kpos x y j : x < y -> j <> x -> j <> y -> reduce_axis x y j = kpos (fun i => negb (mem i [x; y])) j.
  Proof.
    intros Hxy. assert (forall j, kpos (fun i => negb (mem i [x; y])) j = j - (if Nat.ltb x j then 1 else 0) - (if Nat.ltb y j then 1 else 0)) as H.
    { clear j. intros j. unfold kpos. induction j as [|j IH]; [reflexivity|].
      rewrite seq_S, filter_app, app_length, IH. cbn [Nat.add filter mem existsb].
      destruct (Nat.ltb_spec x j), (Nat.ltb_spec x (S j)), (Nat.ltb_spec y j), (Nat.ltb_spec y (S j)); try lia;
        destruct (Nat.eqb_spec j x), (Nat.eqb_spec j y); cbn [orb negb length]; lia. }
    intros _ _. rewrite H. reflexivity.
  Qed.

  Lemma filter_all (p : nat -> bool) l : (forall i, In i l -> p i = true) -> filter p l = l.
  Proof.
    induction l as [|x r IH]; cbn; intros H; [reflexivity|]. rewrite (H x) by auto. f_equal. apply IH. auto.
  Qed.
  Lemma free_axes_last2 l : 2 <= l -> free_axes l [l - 2; l - 1] = seq 0 (l - 2).
  Proof.
    intros Hl. unfold free_axes. assert (seq 0 l = seq 0 (l - 2) ++ [l - 2; l - 1]) as ->.
    { replace l with ((l - 2) + 2) at 1 by lia. rewrite seq_app. f_equal. cbn. f_equal. f_equal. lia. }
    rewrite filter_app. cbn [filter mem existsb]. rewrite !Nat.eqb_refl, orb_true_r. cbn [orb negb].
    rewrite app_nil_r. apply filter_all. intros i Hi. apply in_seq in Hi.
    destruct (Nat.eqb_spec i (l - 2)), (Nat.eqb_spec i (l - 1)); try lia; reflexivity.
  Qed.
  Lemma gather_prefix (l1 l2 : list nat) : gather 0 (l1 ++ l2) (seq 0 (length l1)) = l1.
  Proof.
    rewrite <- (gather_seq 0 l1) at 3. unfold gather. apply map_ext_in. intros i Hi. apply in_seq in Hi. apply app_nth1. lia.
  Qed.

  Lemma contract_trace_step e ed a2 s s' N :
    wf s -> (exists p, slot s p = Some e) -> s_edges s e = Some ed -> e_2 ed = Some (e_n1 ed, a2) ->
    contract_trace e s = (s', Some N) ->
    contracted s s' [e_n1 ed] N /\
    exists nd nms, s_nodes s (e_n1 ed) = Some nd /\
      let x := Nat.min (e_a1 ed) a2 in let y := Nat.max (e_a1 ed) a2 in
      let r := rank (n_t nd) in
      s_nodes s' N = Some (Node (trace2 (transpose (n_t nd) (free_axes r [x; y] ++ [x; y])) (r - 2) (r - 1))
                                (free_labels 0 (n_edges nd) [x; y]) nms).
  Proof.
    intros W (p & Hp) E E2 H. unfold contract_trace in H.
    apply bind_inv in H. destruct H as (ed' & s1 & H1 & H). apply get_edge_inv in H1. destruct H1 as (-> & H1 & Hdis).
    rewrite E in H1. injection H1 as <-. rewrite E2 in H.
    apply bind_inv in H. destruct H as (u0 & s1 & H1 & H). apply guard_inv in H1. destruct H1 as [_ ->].
    apply bind_inv in H. destruct H as (nd & s1 & H1 & H). apply get_node_inv in H1. destruct H1 as [-> Hn].
    cbn zeta in H. set (n := e_n1 ed) in *. set (x := Nat.min (e_a1 ed) a2) in *. set (y := Nat.max (e_a1 ed) a2) in *.
    set (r := rank (n_t nd)) in *.
    set (perm := free_axes r [x; y] ++ [x; y]) in *.
    set (t := trace2 (transpose (n_t nd) perm) (r - 2) (r - 1)) in *.
    apply bind_inv in H. destruct H as (N' & s1 & Hnew & H).
    apply bind_inv in H. destruct H as (u & s2 & Hrem & H). injection H as <- <-.
    destruct (new_node_wf W Hnew) as (W1 & Hlon & EN & Hnone & Hnn & (nms & Hlen & _ & _ & HN) & Hold & Hedge & Hs1ne).
    pose proof (wf_rank W Hn) as Hr.
    (* the two ends *)
    assert (forall q, In q (ends ed) -> slot s q = Some e) as Hl by (intros q Hq; apply (ends_live W Hp E Hq)).
    assert (forall q, slot s q = Some e -> In q (ends ed)) as Hl' by (intros q Hq; apply (live_in_ends W Hq E)).
    assert (NoDup (ends ed)) as Hnd by (destruct (wf_slot W Hp) as (ed0 & K & _ & _ & Hnd & _); rewrite E in K; injection K as <-; exact Hnd).
    assert (ends ed = [(n, e_a1 ed); (n, a2)]) as Eends by (unfold ends; rewrite E2; reflexivity).
    assert (e_a1 ed <> a2) as Hax.
    { rewrite Eends in Hnd. apply NoDup_cons_iff in Hnd. destruct Hnd as [Hnd _]. intros K. apply Hnd. left. congruence. }
    assert (x < y) as Hxy by (unfold x, y; lia).
    assert (forall k, slot s (n, k) = Some e <-> (k = x \/ k = y)) as Hk.
    { intros k. split.
      - intros K. apply Hl' in K. rewrite Eends in K. destruct K as [K|[K|[]]]; injection K as <-; unfold x, y; lia.
      - intros K. apply Hl. rewrite Eends. assert (k = e_a1 ed \/ k = a2) as [->| ->] by (unfold x, y in K; lia); cbn; auto. }
    assert (forall k, k < length (n_edges nd) -> (nth k (n_edges nd) 0 = e <-> (k = x \/ k = y))) as Hk'.
    { intros k Hlk. rewrite <- Hk. split.
      - intros <-. apply (slot_intro Hn). apply nth_error_nth'. exact Hlk.
      - intros K. apply slot_node in K. destruct K as (nd' & K1 & K2). rewrite Hn in K1. injection K1 as <-. apply nth_error_nth. exact K2. }
    assert (x < length (n_edges nd) /\ y < length (n_edges nd)) as [Hxl Hyl].
    { split; [assert (slot s (n, x) = Some e) as K by (apply Hk; auto)|assert (slot s (n, y) = Some e) as K by (apply Hk; auto)];
        apply slot_node in K; destruct K as (nd' & K1 & K2); rewrite Hn in K1; injection K1 as <-; apply nth_error_Some; congruence. }
    (* the execution *)
    unfold remove_trace_edge in Hrem.
    assert (s_edges s1 e = Some ed) as E1 by (rewrite Hedge; [exact E|apply (slot_lt W Hp)]).
    apply bind_inv in Hrem. destruct Hrem as (ed' & s3 & H1 & Hrem). apply get_edge_inv in H1. destruct H1 as (-> & H1 & _).
    rewrite E1 in H1. injection H1 as <-. rewrite E2 in Hrem.
    apply bind_inv in Hrem. destruct Hrem as (u1 & s3 & H1 & Hrem). apply guard_inv in H1. destruct H1 as [_ ->].
    assert (N' <> n) as NN by (intros K; rewrite K in Hnone; fold n in Hn; congruence).
    assert (s_nodes s1 n = Some nd) as Hn1 by (rewrite Hold; auto).
    apply bind_inv in Hrem. destruct Hrem as (nd' & s3 & H1 & Hrem). apply get_node_inv in H1. destruct H1 as [-> H1].
    fold n in H1, Hrem. rewrite Hn1 in H1. injection H1 as <-. cbn zeta in Hrem. fold x y in Hrem.
    set (es := n_edges nd) in *. set (fa := free_axes (length es) [x; y]) in *. set (kept := gather 0 es fa) in *.
    apply bind_inv in Hrem. destruct Hrem as (u2 & s3 & H1 & Hrem). apply shift_all_inv in H1; [|apply NoDup_nodup].
    destruct H1 as (A1 & A2 & A3 & A4).
    assert (rank t = length kept) as Hrt.
    { unfold t, rank, kept. cbn [trace2 shape]. rewrite !gather_length. fold (rank (transpose (n_t nd) perm)).
      assert (rank (transpose (n_t nd) perm) = length es) as ->.
      { unfold rank. cbn [transpose shape]. rewrite gather_length. unfold perm. rewrite app_length. unfold r. rewrite <- Hr.
        fold es. fold fa. cbn [length].
        pose proof (is_perm_length (@free_axes_perm (length es) [x; y]
          ltac:(repeat constructor; cbn; intuition lia) ltac:(cbn; intros i; intuition lia))) as K.
        rewrite app_length in K. cbn [length] in K. unfold fa. lia. }
      assert (r = length es) as Er by (unfold r; rewrite <- Hr; reflexivity).
      pose proof (@free_axes_length (length es) [r - 2; r - 1]
          ltac:(repeat constructor; cbn; intuition lia) ltac:(cbn; intros i; intuition lia)) as Q1.
      pose proof (@free_axes_length (length es) [x; y]
          ltac:(repeat constructor; cbn; intuition lia) ltac:(cbn; intros i; intuition lia)) as Q2.
      cbn [length] in Q1, Q2. unfold fa. lia. }
    apply bind_inv in Hrem. destruct Hrem as (u3 & s4 & H1 & Hrem).
    apply (@add_all_inv _ N' 0 kept false s3 s4 u3 (Node t (seq (s_ne s) (rank t)) nms)) in H1; [|rewrite A1; exact HN|cbn [n_edges Nat.add]; rewrite seq_length; symmetry; exact Hrt].
    cbn [firstn app n_t n_names] in H1. destruct H1 as (B1 & B2 & B3 & B4).
    apply bind_inv in Hrem. destruct Hrem as (u4 & s5 & H1 & Hrem).
    apply (@fresh_edges_inv _ n s4 s5 u4 nd) in H1.
    2:{ rewrite B1. destruct (Nat.eqb_spec n N'); [congruence|]. rewrite A1. exact Hn1. }
    destruct H1 as (C1 & C2 & C3 & C4).
    assert (mfor [e] (@disable_edge R) s5 = (s2, Some tt)) as Hdisable.
    { cbn [mfor]. unfold bind. rewrite Hrem. reflexivity. }
    apply disable_all_inv in Hdisable. destruct Hdisable as (D1 & D2 & D3 & D4).
    assert (s_ne s4 = s_ne s1) as Ene by congruence. rewrite C3, Ene in *. fold es in C1, C4, D3.
    (* final state *)
    assert (forall m, s_nodes s2 m = if Nat.eqb m n then Some (Node (n_t nd) (seq (s_ne s1) (length es)) (n_names nd))
              else if Nat.eqb m N' then Some (Node t kept nms) else s_nodes s m) as Fnodes.
    { intros m. rewrite D1, C1, B1, A1. destruct (Nat.eqb_spec m n); [reflexivity|]. destruct (Nat.eqb_spec m N'); [reflexivity|]. apply Hold. assumption. }
    assert (forall f, In f kept <-> exists j, j < length es /\ j <> x /\ j <> y /\ nth j es 0 = f) as Hkept.
    { intros f. unfold kept, gather. rewrite in_map_iff. unfold fa. split.
      - intros (j & Ej & Hj). apply In_free_axes in Hj. destruct Hj as [Hj K]. exists j. cbn in K. intuition.
      - intros (j & Hj & J1 & J2 & Ej). exists j. split; [exact Ej|]. apply In_free_axes. cbn. intuition. }
    assert (~ In e kept) as Hek.
    { intros K. apply Hkept in K. destruct K as (j & Hj & J1 & J2 & Ej). apply (Hk' j Hj) in Ej. tauto. }
    assert (forall f, f < s_ne s -> f <> e -> s_edges s2 f = if mem f kept then option_map (shift_ed n N' x y) (s_edges s f) else s_edges s f) as Fedges.
    { intros f Hf Hfe. rewrite D4. cbn [mem existsb]. destruct (Nat.eqb_spec f e); [contradiction|]. cbn [orb].
      rewrite C4. rewrite (proj2 (Nat.leb_nle _ f)) by lia. cbn [andb]. rewrite B2, A4, Hedge by lia.
      assert (mem f (nodup Nat.eq_dec kept) = mem f kept) as ->; [|reflexivity].
      apply eq_true_iff_eq. rewrite !mem_In. apply nodup_In. }
    assert (forall j, j <> x -> j <> y -> j < length es -> nth_error fa (reduce_axis x y j) = Some j) as Hred.
    { intros j J1 J2 Hj. rewrite (reduce_kpos Hxy J1 J2). unfold fa, free_axes. apply kpos_nth; [|exact Hj].
      apply negb_true_iff, mem_nIn. cbn. intuition. }
    assert (shape t = gather 0 (shape (n_t nd)) fa) as Hsh.
    { unfold t. cbn [trace2 shape transpose]. unfold rank at 1. cbn [transpose shape]. rewrite gather_length.
      assert (length perm = r) as Lp.
      { unfold perm. apply is_perm_length. apply free_axes_perm; [repeat constructor; cbn; intuition lia|].
        cbn. unfold r. rewrite <- Hr. intros i; fold es; intuition lia. }
      rewrite Lp. unfold perm. rewrite gather_app.
      assert (length (free_axes r [x; y]) = r - 2) as Lf.
      { unfold perm in Lp. rewrite app_length in Lp. cbn in Lp. lia. }
      rewrite free_axes_last2 by (unfold r; rewrite <- Hr; fold es; lia).
      rewrite <- Lf. rewrite <- (gather_length 0 (shape (n_t nd)) (free_axes r [x; y])).
      rewrite gather_prefix. unfold r. rewrite <- Hr. reflexivity. }
    assert (s_nodes s2 N' = Some (Node t kept nms)) as F2N by (rewrite Fnodes; destruct (Nat.eqb_spec N' n); [contradiction|]; rewrite Nat.eqb_refl; reflexivity).
    assert (forall m, m <> n -> m <> N' -> s_nodes s2 m = s_nodes s m) as Fold.
    { intros m M1 M2. rewrite Fnodes. destruct (Nat.eqb_spec m n), (Nat.eqb_spec m N'); congruence. }
    set (sg := shifted n N' x y).
    assert (forall q f, slot s q = Some f -> f <> e -> slot s2 (sg q) = Some f /\ dimat s2 (sg q) = dimat s q) as Hgo.
    { intros [m k] f Hs Hf. unfold sg, shifted. cbn [fst snd]. apply slot_node in Hs. destruct Hs as (md & Hm & Ek).
      destruct (Nat.eqb_spec m n) as [->|Hmn].
      - rewrite Hn in Hm. injection Hm as <-. fold es in Ek.
        assert (k < length es) as Hkl by (apply nth_error_Some; congruence).
        assert (nth k es 0 = f) as Enk by (apply nth_error_nth; exact Ek).
        assert (k <> x /\ k <> y) as [K1 K2].
        { split; intros K; apply Hf; rewrite <- Enk; apply (Hk' k Hkl); auto. }
        unfold slot, dimat. cbn [fst snd]. rewrite F2N, Hn. cbn [n_edges n_t]. unfold kept. rewrite Hsh, !nth_error_gather, (Hred k K1 K2 Hkl).
        split; [congruence|]. symmetry. apply nth_error_nth'. unfold rank in Hr. fold es in Hr. lia.
      - assert (m <> N') as HmN by (intros ->; congruence).
        unfold slot, dimat. cbn [fst snd]. rewrite (Fold m Hmn HmN), Hm. auto. }
    assert (wf s2) as W2.
    { apply (@wfx_rename _ (fun _ => False) s s2).
      - intros m md Em. rewrite Fnodes in Em. destruct (Nat.eqb_spec m n).
        { injection Em as <-. cbn. rewrite seq_length. exact Hr. }
        destruct (Nat.eqb_spec m N'); [injection Em as <-; cbn; symmetry; exact Hrt|]. apply (wf_rank W Em).
      - intros m md Em. rewrite D2, C2, B3, A2, Hnn. rewrite Fnodes in Em. destruct (Nat.eqb_spec m n) as [->|].
        { pose proof (wf_nn W Hn). lia. }
        destruct (Nat.eqb_spec m N'); [lia|]. pose proof (wf_nn W Em). lia.
      - intros f fd Ef. rewrite D3. destruct (Nat.ltb_spec f (s_ne s1 + length es)) as [|Hge]; [assumption|exfalso].
        rewrite D4, C4 in Ef. rewrite (proj2 (Nat.ltb_nlt f _)) in Ef by lia. rewrite andb_false_r, B2, A4 in Ef.
        destruct (s_edges s1 f) as [g|] eqn:Eg; [pose proof (wf_ne W1 Eg); lia|].
        destruct (mem f (nodup Nat.eq_dec kept)), (mem f [e]); discriminate.
      - intros [m k] f Hs. cbn [fst snd]. unfold slot in Hs. cbn [fst snd] in Hs. rewrite Fnodes in Hs.
        destruct (Nat.eqb_spec m n) as [->|Hmn].
        { left. cbn [n_edges] in Hs.
          assert (k < length es) as Hkl by (rewrite <- (seq_length (length es) (s_ne s1)); apply nth_error_Some; congruence).
          rewrite (nth_error_nth' _ 0) in Hs by (rewrite seq_length; exact Hkl). rewrite seq_nth in Hs by exact Hkl. injection Hs as <-.
          pose proof (wf_ne W1 E1) as Hlt.
          rewrite D4. cbn [mem existsb]. destruct (Nat.eqb_spec (s_ne s1 + k) e); [lia|]. cbn [orb]. rewrite C4.
          rewrite (proj2 (Nat.leb_le _ _)), (proj2 (Nat.ltb_lt _ _)) by lia. cbn [andb]. do 2 f_equal. lia. }
        right.
        assert (exists p0, slot s p0 = Some f /\ f <> e /\ (m, k) = sg p0) as (p0 & Hp0 & Hfe & Esg).
        { destruct (Nat.eqb_spec m N') as [->|HmN].
          - cbn [n_edges] in Hs. unfold kept in Hs. rewrite nth_error_gather in Hs.
            destruct (nth_error fa k) as [j|] eqn:Ej; [|discriminate]. injection Hs as Hs.
            pose proof Ej as Ej'. unfold fa, free_axes in Ej'. apply kpos_of_nth in Ej'. destruct Ej' as (-> & HPj & Hj).
            apply negb_true_iff, mem_nIn in HPj. cbn in HPj.
            exists (n, j). split; [apply (slot_intro Hn); fold es; rewrite <- Hs; apply nth_error_nth'; exact Hj|].
            split; [intros K; rewrite K in Hs; apply (Hk' j Hj) in Hs; intuition|].
            unfold sg, shifted. cbn [fst snd]. rewrite Nat.eqb_refl. rewrite reduce_kpos by (intuition lia). reflexivity.
          - exists (m, k). split; [exact Hs|]. split.
            + intros ->. assert (In (m, k) (ends ed)) as K by (apply Hl'; exact Hs). rewrite Eends in K. destruct K as [K|[K|[]]]; congruence.
            + unfold sg, shifted. cbn [fst snd]. destruct (Nat.eqb_spec m n); [contradiction|reflexivity]. }
        destruct (wf_slot W Hp0) as (fd & Ef & Fd & Fin & Fnd & Fall). specialize (Fall (fun z => z)).
        exists sg, p0, fd, (if mem f kept then shift_ed n N' x y fd else fd).
        assert (mem f kept = false -> forall q, In q (ends fd) -> sg q = q) as Hid.
        { intros Hmf [qa qi] Hq. unfold sg, shifted. cbn [fst snd]. destruct (Nat.eqb_spec qa n) as [->|]; [exfalso|reflexivity].
          destruct (Fall _ Hq) as [K _]. apply slot_node in K. destruct K as (md & K1 & K2). rewrite Hn in K1. injection K1 as <-.
          apply mem_nIn in Hmf. apply Hmf. apply Hkept. exists qi. fold es in K2.
          assert (qi < length es) by (apply nth_error_Some; congruence). assert (nth qi es 0 = f) as Eq by (apply nth_error_nth; exact K2).
          split; [assumption|]. split; [|split; [|exact Eq]]; intros K; apply Hfe; rewrite <- Eq; apply Hk'; auto. }
        split; [exact Hp0|]. split; [exact Esg|]. split; [exact Ef|]. split; [|split; [|split; [|split]]].
        + rewrite Fedges; [|apply (slot_lt W Hp0)|exact Hfe]. rewrite Ef. destruct (mem f kept); reflexivity.
        + intros _. destruct (mem f kept); [reflexivity|exact Fd].
        + destruct (mem f kept) eqn:Mf.
          * rewrite shift_ed_ends. reflexivity.
          * rewrite (map_ext_in sg (fun q => q)) by (apply Hid; reflexivity). rewrite map_id. reflexivity.
        + intros [a i] [b j] Hq Hq' Es. destruct (Fall _ Hq) as [Sq _]. destruct (Fall _ Hq') as [Sq' _].
          unfold sg, shifted in Es. cbn [fst snd] in Es.
          destruct (Nat.eqb_spec a n) as [->|Ha], (Nat.eqb_spec b n) as [->|Hb]; try congruence.
          * injection Es as Es. f_equal. apply slot_node in Sq, Sq'. destruct Sq as (? & K1 & K2). destruct Sq' as (? & K3 & K4).
            rewrite Hn in K1, K3. injection K1 as <-. injection K3 as <-. fold es in K2, K4.
            assert (i < length es) as Hi by (apply nth_error_Some; congruence). assert (j < length es) as Hj by (apply nth_error_Some; congruence).
            apply nth_error_nth with (d := 0) in K2. apply nth_error_nth with (d := 0) in K4.
            assert (i <> x /\ i <> y) as [I1 I2] by (split; intros K; apply Hfe; rewrite <- K2; apply Hk'; auto).
            assert (j <> x /\ j <> y) as [J1 J2] by (split; intros K; apply Hfe; rewrite <- K4; apply Hk'; auto).
            pose proof (Hred i I1 I2 Hi) as Q1. pose proof (Hred j J1 J2 Hj) as Q2. rewrite Es in Q1. congruence.
          * exfalso. injection Es as Es _. apply slot_node in Sq'. destruct Sq' as (? & K1 & _). rewrite <- Es in K1. congruence.
          * exfalso. injection Es as Es _. apply slot_node in Sq. destruct Sq as (? & K1 & _). rewrite Es in K1. congruence.
        + intros _ q Hq. apply (Hgo q f); [|exact Hfe]. apply Fall. exact Hq.
      - exact W. }
    pose proof (wf_fits W Hn) as Ft. fold es in Ft.
    assert (is_perm (length es) perm) as Pp.
    { unfold perm, r. rewrite <- Hr. fold es. apply free_axes_perm; [repeat constructor; cbn; intuition lia|]. cbn. intros i; intuition lia. }
    assert (fits (edim s) (transpose (n_t nd) perm, gather 0 es perm)) as Ft2.
    { apply fits_transpose; [|exact Ft]. intros i Hi. apply (is_perm_In i Pp). exact Hi. }
    assert (length (gather 0 es perm) = length es) as Lg by (rewrite gather_length; apply (is_perm_length Pp)).
    assert (r = length es) as Er by (unfold r; rewrite <- Hr; reflexivity).
    assert (length fa = length es - 2) as Lfa.
    { pose proof (is_perm_length Pp) as K. unfold perm in K. rewrite app_length in K. cbn in K. rewrite Er in K. fold fa in K. lia. }
    assert (gather 0 es perm = kept ++ [e; e]) as Eg.
    { unfold perm. rewrite Er, gather_app. fold fa. fold kept. f_equal. cbn.
      rewrite (proj2 (Hk' x Hxl)), (proj2 (Hk' y Hyl)) by auto. reflexivity. }
    assert (length kept = length es - 2) as Lk by (unfold kept; rewrite gather_length; exact Lfa).
    assert (free_labels 0 (gather 0 es perm) [r - 2; r - 1] = kept) as Efl.
    { unfold free_labels. rewrite Lg, Er.
      rewrite free_axes_last2 by lia. rewrite Eg, <- Lk. apply gather_prefix. }
assert (fits (edim s) (fac s2 N')) as FtN.
    { rewrite (fac_node F2N). cbn [n_t n_edges]. unfold t. rewrite <- Efl. apply fits_trace2. exact Ft2. }
    split.
    - split; auto.
      + split; congruence.
      + eauto.
      + intros m Hm HmN. apply Fold; [|exact HmN]. intros ->. apply Hm. left. reflexivity.
      + intros S a HS HNS _. cbn [app] in *. apply NoDup_cons_iff in HS. destruct HS as [HS1 HS].
        assert (forall m, In m S -> s_nodes s2 m = s_nodes s m) as Hm by (intros m Hm; apply Fold; intros ->; contradiction).
        rewrite (@netval_dim _ s2 (N' :: S) (edim s)); [|exact W2|].
        2:{ intros m [<-|Hm']; [|unfold fac; rewrite (Hm m Hm'); apply (fac_fits m W)].
            exact FtN. }
        unfold netval. cbn [net_of map]. fold (net_of s S) (net_of s2 S). rewrite (net_of_ext Hm).
        rewrite (fac_node Hn), (fac_node F2N). cbn [n_t n_edges]. fold es.
        etransitivity; [apply (@value_transpose _ Nat.eq_dec R (edim s) (n_t nd) es perm 0 (net_of s S) _ a Pp (Permutation_refl _))|].
        unfold t. rewrite <- Efl at 1. apply value_trace2.
        * exact Ft2.
        * rewrite Lg. lia.
        * rewrite Lg. lia.
        * lia.
        * rewrite Eg, Er, !app_nth2 by lia. rewrite Lk. replace (length es - 2 - (length es - 2)) with 0 by lia.
          replace (length es - 1 - (length es - 2)) with 1 by lia. reflexivity.
        * rewrite Efl. assert (nth (r - 2) (gather 0 es perm) 0 = e) as ->.
          { rewrite Eg, Er, app_nth2 by lia. rewrite Lk. replace (length es - 2 - (length es - 2)) with 0 by lia. reflexivity. }
          rewrite in_app_iff. intros [K|K]; [contradiction|]. apply (In_net_labels S e W) in K. destruct K as (m & k & Hm' & Hs).
          apply Hl' in Hs. rewrite Eends in Hs. destruct Hs as [Hs|[Hs|[]]]; injection Hs as <- _; contradiction.
        * reflexivity.
      + exists [e]. cbn [net_of map]. rewrite !net_labels_cons, (fac_node Hn), (fac_node F2N).
        cbn [snd net_labels flat_map n_edges]. rewrite !app_nil_r. fold es. rewrite <- (gather_perm 0 Pp) at 1. rewrite Eg.
        rewrite Permutation_app_comm. reflexivity.
    - exists nd, nms. split; [exact Hn|]. cbn zeta. exact F2N.
  Qed.
End GX.
