(** * SerialCopy: nodes and edges created from the description of a network form a copy of it *)
From Coq Require Import String Permutation.
From Verif Require Import Prelude Res Algebra Tensor ListFacts Serial SerialSpec SerialCore.
Set Implicit Arguments.
Unset Strict Implicit.
Open Scope list_scope.
Open Scope nat_scope.

Lemma NoDup_blocks A B (f : A -> list B) l : (forall x, In x l -> NoDup (f x)) -> NoDup l -> (forall x y z, In x l -> In y l -> In z (f x) -> In z (f y) -> x = y) -> NoDup (flat_map f l).
Proof.
  induction l as [|x l IH]; intros H1 H2 H3; cbn [flat_map]; [constructor|]. inversion H2 as [|? ? N1 N2]; subst. apply NoDup_app_iff. split; [apply H1; left; reflexivity|]. split.
  - apply IH; [intros; apply H1; right; assumption | exact N2 | intros; eapply H3; try (right; eassumption); eassumption].
  - intros z Hz Hz'. apply in_flat_map in Hz' as (y & Hy & Hz'). apply N1. rewrite (H3 x y z); [exact Hy | left; reflexivity | right; exact Hy | exact Hz | exact Hz'].
Qed.

Lemma nth_nindex d n l : In n l -> nth (nindex n l) l d = n.
Proof. intros H. apply nth_index_of, H. Qed.
Lemma nindex_nth d l i : NoDup l -> i < length l -> nindex (nth i l d) l = i.
Proof. intros N H. apply index_of_nth; assumption. Qed.
Section Copy.
  Context {R : csr}.
  Notation heap := (@heap R).
  Definition spec_of (pay : @payload R -> @payload R) (h : heap) (n : nat) : spec :=
    match nth_error (hn h) n with Some nd => (o_name nd, o_axes nd, o_backend nd, pay (o_pay nd)) | None => (EmptyString, [], EmptyString, PCopy 0 0 EmptyString) end.
  Definition triple_of (h : heap) (ns ns' : list nat) (e : nat) : triple :=
    match nth_error (he h) e with Some ed => (move ns ns' (g_1 ed), move ns ns' (g_2 ed), g_name ed) | None => (None, None, EmptyString) end.
  Variable h : heap.
  Variable ns : list nat.
  Hypothesis SO : sound h ns.
  Hypothesis ND : NoDup ns.
  Variable pay : @payload R -> @payload R.
  Hypothesis PAY : forall n nd, In n ns -> nth_error (hn h) n = Some nd -> same_pay (pay (o_pay nd)) (o_pay nd).
  Lemma pay_shape n nd : In n ns -> nth_error (hn h) n = Some nd -> pshape (pay (o_pay nd)) = pshape (o_pay nd).
  Proof. intros Hn E. pose proof (PAY Hn E) as Q. destruct (pay (o_pay nd)) as [t|], (o_pay nd) as [u|]; cbn in *; try contradiction; [apply Q | congruence]. Qed.

  Lemma spec_of_ok n : In n ns -> sp_ok (spec_of pay h n).
  Proof. intros H. destruct (so_node SO H) as (nd & E & A & B & C). unfold spec_of. rewrite E. split; [exact A | unfold sp_axes, sp_pay; cbn [fst snd]; rewrite (pay_shape H E); exact B]. Qed.
  Lemma index_lt n : In n ns -> nindex n ns < length ns.
  Proof. intros H. apply index_of_lt, H. Qed.
  Lemma move_seq b x : move ns (seq b (length ns)) x = match x with Some (n, a) => if in_dec Nat.eq_dec n ns then Some (b + nindex n ns, a) else None | None => None end.
  Proof. destruct x as [[n a]|]; [|reflexivity]. unfold move. destruct (in_dec Nat.eq_dec n ns) as [H|]; [|reflexivity]. rewrite seq_nth by (apply index_lt, H). reflexivity. Qed.
  Lemma move_inv b x m l : move ns (seq b (length ns)) x = Some (m, l) -> exists n, In n ns /\ x = Some (n, l) /\ m = b + nindex n ns.
  Proof. rewrite move_seq. destruct x as [[n a]|]; [|discriminate]. destruct (in_dec Nat.eq_dec n ns) as [H|]; [|discriminate]. intros E. inversion E; subst. exists n. auto. Qed.
  Lemma index_inj n m : In n ns -> In m ns -> nindex n ns = nindex m ns -> n = m.
  Proof. intros H1 H2 E. rewrite <- (nth_nindex 0 H1), <- (nth_nindex 0 H2), E. reflexivity. Qed.
  Lemma tends_inv b e m l : In (m, l) (tends (triple_of h ns (seq b (length ns)) e)) -> exists ed n, nth_error (he h) e = Some ed /\ In n ns /\ has_end ed n l /\ m = b + nindex n ns.
  Proof.
    unfold triple_of. destruct (nth_error (he h) e) as [ed|] eqn:E; [|intros []]. unfold tends. cbn [fst snd]. intros H. apply in_app_iff in H as [H|H].
    - destruct (move ns _ (g_1 ed)) as [[m' l']|] eqn:Q; [|destruct H]. destruct H as [H|[]]. inversion H; subst. apply move_inv in Q as (n & A & B & C). exists ed, n. repeat split; auto. left. exact B.
    - destruct (move ns _ (g_2 ed)) as [[m' l']|] eqn:Q; [|destruct H]. destruct H as [H|[]]. inversion H; subst. apply move_inv in Q as (n & A & B & C). exists ed, n. repeat split; auto. right. exact B.
  Qed.
  Lemma tends_in b e ed n l : nth_error (he h) e = Some ed -> In n ns -> has_end ed n l -> In (b + nindex n ns, l) (tends (triple_of h ns (seq b (length ns)) e)).
  Proof.
    intros E H Q. unfold triple_of. rewrite E. unfold tends. cbn [fst snd]. rewrite !move_seq. apply in_app_iff. destruct Q as [-> | ->]; [left|right]; (destruct (in_dec Nat.eq_dec n ns); [|contradiction]); left; reflexivity.
  Qed.

  Variable es : list nat.
  Hypothesis AE : all_edges h ns es.
  Lemma edge_slot e ed m l : In e es -> nth_error (he h) e = Some ed -> has_end ed m l -> In m ns -> slot h m l = Some e.
  Proof. intros H E Q Hm. apply AE in H as (n & k & Hn & Hs). exact (so_back SO Hn Hs E Q Hm). Qed.
  Lemma tends_nodup b : NoDup (flat_map (fun e => tends (triple_of h ns (seq b (length ns)) e)) es).
  Proof.
    apply NoDup_blocks; [| apply AE |].
    - intros e He. apply AE in He as (n & k & Hn & Hs). destruct (so_edge SO Hn Hs) as (ed & E & _ & _ & _ & N). unfold triple_of. rewrite E. unfold tends. cbn [fst snd].
      destruct (move ns _ (g_1 ed)) as [[m1 l1]|] eqn:Q1, (move ns _ (g_2 ed)) as [[m2 l2]|] eqn:Q2; cbn [app]; try solve [constructor; [intros [] | constructor]]; [|constructor].
      constructor; [|constructor; [intros [] | constructor]]. intros [F|[]]. inversion F; subst. apply move_inv in Q1 as (n1 & A1 & B1 & C1). apply move_inv in Q2 as (n2 & A2 & B2 & C2). apply N. rewrite B1, B2.
      rewrite (@index_inj n1 n2); [reflexivity | assumption | assumption | lia].
    - intros e1 e2 [m l] H1 H2 T1 T2. apply tends_inv in T1 as (ed1 & n1 & E1 & I1 & Q1 & F1). apply tends_inv in T2 as (ed2 & n2 & E2 & I2 & Q2 & F2).
      assert (n1 = n2) by (apply index_inj; [assumption | assumption | lia]). subst n2. pose proof (edge_slot H1 E1 Q1 I1). pose proof (edge_slot H2 E2 Q2 I2). congruence.
  Qed.

  Theorem copy_ok ov (h0 : heap) : exists h1 h2, news h0 (map (spec_of pay h) ns) = Ok h1 /\
    place ov h1 (map (triple_of h ns (seq (length (hn h0)) (length ns))) es) = Ok h2 /\
    he h2 = he h1 ++ map mk (map (triple_of h ns (seq (length (hn h0)) (length ns))) es) /\
    copied h ns h2 (seq (length (hn h0)) (length ns)) /\ extends h0 h2 /\
    (forall i, i < length ns -> name_of h1 (length (hn h0) + i) = name_of h (nth i ns 0)) /\
    (forall i k j, i < length ns -> slot h (nth i ns 0) k = Some (nth j es 0) -> j < length es -> slot h2 (length (hn h0) + i) k = Some (length (he h1) + j)).
  Proof.
    set (b := length (hn h0)). set (trs := map (triple_of h ns (seq b (length ns))) es).
    destruct (@news_ok _ (map (spec_of pay h) ns) h0) as (h1 & E1 & X1 & L1 & F1); [intros s Hs; apply in_map_iff in Hs as (n & <- & Hn); apply spec_of_ok, Hn|].
    assert (FR : forall n, In n ns -> fresh h1 (b + nindex n ns) (spec_of pay h n)).
    { intros n Hn. apply F1. rewrite nth_error_map. rewrite (nth_error_nth' ns 0) by (apply index_lt, Hn). rewrite nth_nindex by exact Hn. reflexivity. }
    assert (FM : flat_map tends trs = flat_map (fun e => tends (triple_of h ns (seq b (length ns)) e)) es) by (unfold trs; clear; induction es as [|e r IH]; cbn; [reflexivity | rewrite IH; reflexivity]).
    destruct (@place_ok _ ov trs h1) as (h2 & E2 & Q2 & R2).
    { rewrite FM. apply tends_nodup. }
    { rewrite FM. intros [m l] H. apply in_flat_map in H as (e & He & H). apply tends_inv in H as (ed & n & Hed & Hn & Hh & ->). pose proof (edge_slot He Hed Hh Hn) as Hs.
      destruct (FR n Hn) as (o & G1 & G2). destruct (so_node SO Hn) as (nd & D1 & D2 & D3 & D4). unfold slot in Hs. rewrite D1 in Hs. assert (l < length (o_edges nd)) as Hl by (eapply nth_error_lt, Hs).
      assert (sp_axes (spec_of pay h n) = o_axes nd /\ sp_pay (spec_of pay h n) = pay (o_pay nd)) as [A1 A2] by (unfold spec_of; rewrite D1; split; reflexivity).
      destruct (G2 l) as (ed' & G3 & G4); [rewrite A1; lia|]. eexists _, (o + l), ed'. cbn [fst snd]. split; [exact G1|]. cbn [o_edges o_pay]. rewrite A1, A2. split.
      - rewrite (nth_error_nth' _ 0) by (rewrite seq_length; lia). rewrite seq_nth by lia. reflexivity.
      - split; [exact G3|]. split; [left; exact G4|]. rewrite seq_length, (pay_shape Hn D1). exact D3. }
    exists h1, h2. split; [exact E1|]. split; [exact E2|]. split; [exact Q2|].
    assert (SL : forall i k e, i < length ns -> slot h (nth i ns 0) k = Some e -> exists j, j < length es /\ nth j es 0 = e /\ slot h2 (b + i) k = Some (length (he h1) + j)).
    { intros i k e Hi Hs. assert (In (nth i ns 0) ns) as Hn by (apply nth_In, Hi). assert (In e es) as He by (apply AE; eauto).
      destruct (so_edge SO Hn Hs) as (ed & Hed & Hh & _). pose proof (tends_in b Hed Hn Hh) as T. rewrite (nindex_nth 0 ND Hi) in T.
      assert (In (b + i, k) (flat_map tends trs)) as IN by (rewrite FM; apply in_flat_map; eauto). pose proof (rs_slot R2 (b + i) k) as S2. destruct (in_dec pair_dec (b + i, k) (flat_map tends trs)) as [_|]; [|contradiction].
      destruct (pos_in (length (he h1)) IN) as (j & t & P1 & P2 & P3). exists j. unfold trs in P1. rewrite nth_error_map in P1. destruct (nth_error es j) as [e'|] eqn:Ej; [|discriminate]. cbn in P1. inversion P1; subst t; clear P1.
      split; [eapply nth_error_lt, Ej|]. split; [|congruence]. rewrite (nth_error_nth _ _ 0 Ej). apply tends_inv in P2 as (ed' & n' & G1 & G2 & G3 & G4).
      assert (n' = nth i ns 0) by (apply index_inj; [assumption | assumption | rewrite (nindex_nth 0 ND Hi); lia]). subst n'. apply nth_error_In in Ej. pose proof (edge_slot Ej G1 G3 Hn). congruence. }
    assert (ED : forall j, j < length es -> nth_error (he h2) (length (he h1) + j) = Some (mk (triple_of h ns (seq b (length ns)) (nth j es 0)))).
    { intros j Hj. rewrite Q2, nth_error_app2 by lia. replace (length (he h1) + j - length (he h1)) with j by lia. unfold trs. rewrite !nth_error_map, (nth_error_nth' es 0) by exact Hj. reflexivity. }
    split; [|split; [|split]].
    - constructor.
      + apply seq_NoDup.
      + apply seq_length.
      + intros i Hi. assert (In (nth i ns 0) ns) as Hn by (apply nth_In, Hi). destruct (so_node SO Hn) as (nd & D1 & D2 & D3 & D4). destruct (FR _ Hn) as (o & G1 & G2). rewrite (nindex_nth 0 ND Hi) in G1.
        destruct (rs_node R2 G1) as (nd' & N1 & N2 & N3 & N4 & N5 & N6). exists nd, nd'. rewrite seq_nth by exact Hi. split; [exact D1|]. split; [exact N1|]. cbn [o_name o_axes o_backend o_pay o_edges] in *.
        unfold spec_of in *. rewrite D1 in *. cbn [sp_name sp_axes sp_backend sp_pay fst snd] in *. rewrite seq_length in N6. repeat split; try congruence. rewrite N5. apply (PAY Hn D1).
      + intros i k e ed Hi Hs He. destruct (SL i k e Hi Hs) as (j & Hj & Ee & S2). rewrite seq_nth by exact Hi. eexists _, _. split; [exact S2|]. split; [apply ED, Hj|]. rewrite Ee. unfold triple_of, mk. rewrite He. cbn. repeat split; reflexivity.
      + intros i k j l e1 e2 f1 f2 Hi Hj S1 S2 T1 T2. rewrite seq_nth in T1, T2 by assumption. destruct (SL i k e1 Hi S1) as (a & A1 & A2 & A3). destruct (SL j l e2 Hj S2) as (c & C1 & C2 & C3).
        rewrite A3 in T1. rewrite C3 in T2. inversion T1; inversion T2; subst. split; [intros F; f_equal; lia|]. intros F. f_equal. apply (proj1 (NoDup_nth es 0) (proj1 AE)); assumption.
    - split.
      + intros n nd H. rewrite (rs_same R2); [apply X1, H|]. intros k Hk. rewrite FM in Hk. apply in_flat_map in Hk as (e & He & Hk). apply tends_inv in Hk as (_ & n' & _ & _ & _ & F). apply nth_error_lt in H. unfold b in F. lia.
      + intros e ed H. rewrite Q2. apply nth_error_app_l. apply X1, H.
    - intros i Hi. assert (In (nth i ns 0) ns) as Hn by (apply nth_In, Hi). destruct (FR _ Hn) as (o & G1 & _). rewrite (nindex_nth 0 ND Hi) in G1. unfold name_of. rewrite G1. cbn [o_name]. unfold spec_of.
      destruct (nth_error (hn h) (nth i ns 0)); reflexivity.
    - intros i k j Hi Hs Hj. destruct (SL i k _ Hi Hs) as (j' & A1 & A2 & A3). assert (j' = j) by (apply (proj1 (NoDup_nth es 0) (proj1 AE)); assumption). subst. exact A3.
  Qed.
End Copy.
