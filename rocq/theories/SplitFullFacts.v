(** * SplitFullFacts: correctness of split_node_full_svd *)
From Verif Require Import Prelude Res Algebra Tensor TensorFacts Einsum EinsumFacts NetworkFacts Graph GraphBase GraphContract GraphOps GraphValue GraphOuter GraphConnect GraphJoin GraphLaws GraphQuery GraphQueryFacts GraphCompound GraphCopy NetIso GraphCopyFacts Backends DecompFacts SplitNode SplitNodeFacts.
Set Implicit Arguments.
Unset Strict Implicit.

Section Full.
  Context {R : cjr}.
  Add Ring Rring : (rsr R).
  Notation st := (@st R).
  Implicit Types (s : st) (e f : eid).
  Notation "x <- m ;; k" := (bind m (fun x => k)) (at level 61, m at next level, right associativity).
  Notation "m ;;; k" := (bind m (fun _ => k)) (at level 61, right associativity).

  Definition full_mid (n : nid) (L Rt : list eid) (tl tm tr : tensor R) (nml nmm nmr : option (list nat)) : @M R (nid * nid * nid) :=
    N1 <- new_node tl nml ;;
    N3 <- new_node tm nmm ;;
    N2 <- new_node tr nmr ;;
    al <- mmap (node_axis n) L ;;
    move_edges n N1 0 al L ;;;
    ar <- mmap (node_axis n) Rt ;;
    move_edges n N2 1 ar Rt ;;;
    e1 <- last_edge N1 ;; c0 <- edge_of N3 0 ;; connect e1 c0 ;;;
    c1 <- edge_of N3 1 ;; e2 <- edge_of N2 0 ;; connect c1 e2 ;;;
    ret (N1, N3, N2).

  Lemma framed_full_mid n L Rt tl tm tr nml nmm nmr : framed n (full_mid n L Rt tl tm tr nml nmm nmr).
  Proof.
    apply framed_bind; [apply framed_new_node|]. intros N1. apply framed_bind; [apply framed_new_node|]. intros N3. apply framed_bind; [apply framed_new_node|]. intros N2.
    apply framed_bind; [apply framed_mmap; intros x; apply framed_node_axis|]. intros al. apply framed_bind; [apply framed_move_edges|]. intros _.
    apply framed_bind; [apply framed_mmap; intros x; apply framed_node_axis|]. intros ar. apply framed_bind; [apply framed_move_edges|]. intros _.
    apply framed_bind; [apply framed_last_edge|]. intros e1. apply framed_bind; [apply framed_edge_of|]. intros c0. apply framed_bind; [apply framed_connect|]. intros _.
    apply framed_bind; [apply framed_edge_of|]. intros c1. apply framed_bind; [apply framed_edge_of|]. intros e2. apply framed_bind; [apply framed_connect|]. intros _.
    apply framed_ret.
  Qed.

  Lemma loose_keep s s' p f d : loose_at s p f d -> s_nodes s' (fst p) = s_nodes s (fst p) -> s_edges s' f = s_edges s f -> loose_at s' p f d.
  Proof. intros (A & B & C) H1 H2. unfold loose_at, slot, dimat in *. rewrite H1, H2. auto. Qed.

  Record full_post s s' (n : nid) (L Rt : list eid) (tl tm tr : tensor R) nml nmm nmr (N1 N3 N2 : nid) (g h : eid) : Prop := {
    fp_wf : wf s'; fp_N1 : s_nn s <= N1; fp_N3 : s_nn s <= N3; fp_N2 : s_nn s <= N2; fp_13 : N1 <> N3; fp_12 : N1 <> N2; fp_32 : N3 <> N2;
    fp_g : s_ne s <= g; fp_h : s_ne s <= h; fp_gh : g <> h;
    fp_n1 : s_nodes s' N1 = Some (Node tl (L ++ [g]) (nm_of nml tl));
    fp_n3 : s_nodes s' N3 = Some (Node tm [g; h] (nm_of nmm tm));
    fp_n2 : s_nodes s' N2 = Some (Node tr (h :: Rt) (nm_of nmr tr));
    fp_other : forall m, m <> N1 -> m <> N3 -> m <> N2 -> s_nodes s' m = s_nodes s m
  }.

  Lemma full_mid_ok n L Rt tl tm tr nml nmm nmr axf df k s : wfx (fun e => In e (L ++ Rt)) s -> s_nodes s n = None -> n < s_nn s -> NoDup (L ++ Rt) ->
    (forall e, In e (L ++ Rt) -> pend s n e (axf e) (df e)) -> shape tl = map df L ++ [k] -> shape tm = [k; k] -> shape tr = k :: map df Rt ->
    nm_ok nml tl -> nm_ok nmm tm -> nm_ok nmr tr ->
    exists s' N1 N3 N2 g h, full_mid n L Rt tl tm tr nml nmm nmr s = (s', Some (N1, N3, N2)) /\ full_post s s' n L Rt tl tm tr nml nmm nmr N1 N3 N2 g h.
  Proof.
    intros W Hn Hnlt HND Hp Htl Htm Htr Hn1 Hn3 Hn2. apply NoDup_app_iff in HND. destruct HND as (HL & HR & HLR).
    assert (forall e, In e (L ++ Rt) -> e < s_ne s) as Hlt by (intros e He; destruct (Hp e He) as (ed & E & _); apply (wf_ne W E)).
    assert (rank tl = length L + 1) as Hr1 by (unfold rank; rewrite Htl, app_length, map_length; reflexivity).
    assert (rank tr = 1 + length Rt) as Hr2 by (unfold rank; rewrite Htr; cbn; rewrite map_length; reflexivity).
    assert (rank tm = 2) as Hr3 by (unfold rank; rewrite Htm; reflexivity).
    destruct (add_node_step W Hn1) as (s1 & K1 & W1 & F1 & B1 & C1 & D1 & E1 & G1 & H1 & I1). set (N1 := s_nn s) in *.
    destruct (add_node_step W1 Hn3) as (s2 & K2 & W2 & F2 & B2 & C2 & D2 & E2 & G2 & H2 & I2). set (N3 := s_nn s1) in *.
    destruct (add_node_step W2 Hn2) as (s3 & K3 & W3 & F3 & B3 & C3 & D3 & E3 & G3 & H3 & I3). set (N2 := s_nn s2) in *.
    assert (n < N1 /\ N1 < N3 /\ N3 < N2) as (O1 & O2 & O3) by (unfold N1, N2, N3; lia).
    assert (s_nodes s3 n = None) as Hns3 by (rewrite E3, E2, E1 by lia; exact Hn).
    assert (s_nodes s3 N1 = Some (Node tl (seq (s_ne s) (rank tl)) (nm_of nml tl))) as D1' by (rewrite E3, E2 by lia; exact D1).
    assert (forall j d, nth_error (shape tl) j = Some d -> loose_at s3 (N1, j) (s_ne s + j) d) as H1'.
    { intros j d Hj. assert (j < rank tl) by (apply nth_error_Some; congruence). apply (loose_keep (H1 j d Hj)); [cbn; rewrite E3, E2 by lia; reflexivity|]. rewrite G3, G2 by lia. reflexivity. }
    assert (forall j d, nth_error (shape tm) j = Some d -> loose_at s3 (N3, j) (s_ne s1 + j) d) as H2'.
    { intros j d Hj. assert (j < rank tm) by (apply nth_error_Some; congruence). apply (loose_keep (H2 j d Hj)); [cbn; rewrite E3 by lia; reflexivity|]. rewrite G3 by lia. reflexivity. }
    assert (forall e, In e (L ++ Rt) -> pend s3 n e (axf e) (df e)) as Hp3 by (intros e He; apply I3, I2, I1, Hp; exact He).
    destruct (@move_step R n N1 axf df L _ s3 tl _ [] [s_ne s + length L] [] [k] (s_ne s) W3 Hns3 HL D1') as (s4 & K4 & W4 & B4 & C4 & D4 & E4 & G4 & P4 & I4);
      [exact Htl|reflexivity|cbn; f_equal; lia|exact H1'|intros e He; apply Hp3, in_or_app; left; exact He|].
    cbn [app length] in *.
    assert (s_nodes s4 n = None) as Hns4 by (rewrite E4 by lia; exact Hns3).
    assert (s_nodes s4 N2 = Some (Node tr (seq (s_ne s2) (rank tr)) (nm_of nmr tr))) as D3' by (rewrite E4 by lia; exact D3).
    assert (forall x, s_ne s <= x -> ~ In x L /\ ~ In x Rt) as Hnew by (intros x Hx; split; intros Q; [pose proof (Hlt x (in_or_app _ _ _ (or_introl Q)))|pose proof (Hlt x (in_or_app _ _ _ (or_intror Q)))]; lia).
    assert (forall j d, nth_error (shape tr) j = Some d -> loose_at s4 (N2, j) (s_ne s2 + j) d) as H3'.
    { intros j d Hj. apply (loose_keep (H3 j d Hj)); [cbn; apply E4; lia|]. apply G4. apply Hnew. lia. }
    destruct (@move_step R n N2 axf df Rt _ s4 tr _ [s_ne s2] [] [k] [] (s_ne s2) W4 Hns4 HR D3') as (s5 & K5 & W5 & B5 & C5 & D5 & E5 & G5 & P5 & I5);
      [rewrite app_nil_r; exact Htr|reflexivity|reflexivity|exact H3'|intros e He; apply I4; [intros Q; exact (HLR _ Q He)|]; apply Hp3, in_or_app; right; exact He|].
    cbn [app length] in *. rewrite app_nil_r in D5.
    assert (wf s5) as W5'.
    { apply (wfx_weaken (X := fun x => (In x (L ++ Rt) /\ ~ In x L) /\ ~ In x Rt)); [|exact W5]. intros x [[A B] C]. apply in_app_or in A. tauto. }
    set (e1 := s_ne s + length L) in *. set (e2 := s_ne s2) in *. set (c0 := s_ne s1) in *. set (c1 := s_ne s1 + 1) in *.
    assert (nth_error (shape tl) (length L) = Some k) as Hk1 by (rewrite Htl, nth_error_app2 by (rewrite map_length; lia); rewrite map_length, Nat.sub_diag; reflexivity).
    assert (nth_error (shape tr) 0 = Some k) as Hk2 by (rewrite Htr; reflexivity).
    assert (nth_error (shape tm) 0 = Some k /\ nth_error (shape tm) 1 = Some k) as [Hk3 Hk4] by (rewrite Htm; auto).
    assert (e1 < c0 /\ c0 < c1 /\ c1 < e2 /\ e2 < s_ne s5 /\ s_ne s <= e1) as (Q1 & Q2 & Q3 & Q4 & Q5) by (unfold e1, c0, c1, e2; lia).
    assert (s_nodes s5 N1 = Some (Node tl (L ++ [e1]) (nm_of nml tl))) as M1 by (rewrite E5 by lia; exact D4).
    assert (s_nodes s5 N3 = Some (Node tm [c0; c1] (nm_of nmm tm))) as M3.
    { rewrite E5, E4, E3 by lia. rewrite D2, Hr3. cbn. unfold c0, c1. do 3 f_equal. f_equal. lia. }
    assert (loose_at s5 (N1, length L) e1 k) as L1.
    { destruct (H1' _ _ Hk1) as (A & B & C). split; [|split].
      - unfold slot. cbn [fst snd]. rewrite M1. cbn [n_edges]. rewrite nth_error_app2, Nat.sub_diag by lia. reflexivity.
      - rewrite G5, G4 by (apply Hnew; lia). exact B.
      - unfold dimat. cbn [fst snd]. rewrite M1. exact Hk1. }
    assert (loose_at s5 (N2, 0) e2 k) as L2.
    { destruct (H3' _ _ Hk2) as (A & B & C). rewrite Nat.add_0_r in *. fold e2 in A, B. split; [|split].
      - unfold slot. cbn [fst snd]. rewrite D5. reflexivity.
      - rewrite G5 by (apply Hnew; lia). exact B.
      - rewrite P5. exact C. }
    assert (loose_at s5 (N3, 0) c0 k) as L3.
    { pose proof (H2' _ _ Hk3) as A. rewrite Nat.add_0_r in A. apply (loose_keep A); [cbn; rewrite E5, E4 by lia; reflexivity|]. rewrite G5, G4 by (apply Hnew; lia). reflexivity. }
    assert (loose_at s5 (N3, 1) c1 k) as L4.
    { pose proof (H2' _ _ Hk4) as A. apply (loose_keep A); [cbn; rewrite E5, E4 by lia; reflexivity|]. fold c1. rewrite G5, G4 by (apply Hnew; lia). reflexivity. }
    destruct (@bond_step R s5 e1 c0 (N1, length L) (N3, 0) k W5') as (s6 & K6 & W6 & B6 & C6 & D6 & E6 & P6); [intros E; injection E as E _; lia|exact L1|exact L3|].
    assert (forall p f, loose_at s5 p f k -> f <> e1 -> f <> c0 -> f < s_ne s5 -> loose_at s6 p f k) as Hkeep.
    { intros p f (A & B & C) N_1 N_2 N_3. split; [|split].
      - rewrite (cp_slot P6). destruct (slot_eqb_spec p (N1, length L)) as [->|]; [destruct L1; congruence|]. destruct (slot_eqb_spec p (N3, 0)) as [->|]; [destruct L3; congruence|]. exact A.
      - rewrite E6 by lia. exact B.
      - unfold dimat in *. rewrite D6. destruct (s_nodes s5 (fst p)); exact C. }
    destruct (@bond_step R s6 c1 e2 (N3, 1) (N2, 0) k W6) as (s7 & K7 & W7 & B7 & C7 & D7 & E7 & P7);
      [intros E; injection E as E _; lia|apply (Hkeep _ _ L4); lia|apply (Hkeep _ _ L2); lia|].
    assert (s_nodes s6 N3 = Some (Node tm [s_ne s5; c1] (nm_of nmm tm))) as M3'.
    { rewrite D6, M3. cbn [option_map n_t n_edges n_names map]. do 3 f_equal; unfold ren2; rewrite ?Nat.eqb_refl, ?orb_true_r; [reflexivity|].
      destruct (Nat.eqb_spec c1 e1); [lia|]. destruct (Nat.eqb_spec c1 c0); [lia|]. reflexivity. }
    assert (s_nodes s6 N2 = Some (Node tr (e2 :: Rt) (nm_of nmr tr))) as M2'.
    { rewrite D6, D5. cbn [option_map n_t n_edges n_names]. do 2 f_equal. apply map_ren2_id; (intros [Q|Q]; [lia|]; revert Q; apply Hnew; lia). }
    assert (s_nodes s6 N1 = Some (Node tl (L ++ [s_ne s5]) (nm_of nml tl))) as M1'.
    { rewrite D6, M1. cbn [option_map n_t n_edges n_names]. do 2 f_equal. rewrite map_app, map_ren2_id by (apply Hnew; lia). cbn. unfold ren2. rewrite Nat.eqb_refl. reflexivity. }
    exists s7, N1, N3, N2, (s_ne s5), (s_ne s6). split.
    { unfold full_mid. unfold bind at 1. rewrite K1. unfold bind at 1. rewrite K2. unfold bind at 1. rewrite K3. unfold bind at 1.
      rewrite (@node_axes_ok R s3 n axf df L) by (intros e He; apply Hp3, in_or_app; left; exact He).
      unfold bind at 1. rewrite K4. unfold bind at 1.
      rewrite (@node_axes_ok R s4 n axf df Rt) by (intros e He; apply I4; [intros Q; exact (HLR _ Q He)|]; apply Hp3, in_or_app; right; exact He).
      unfold bind at 1. rewrite K5. unfold bind at 1. unfold last_edge, get_node. unfold bind at 1. rewrite M1. cbn [n_edges]. rewrite rev_unit. unfold ret at 1.
      unfold bind at 1. unfold edge_of, get_node. unfold bind at 1. rewrite M3. cbn [n_edges nth_error]. unfold ret at 1. unfold bind at 1. rewrite K6.
      unfold bind at 1. unfold bind at 1. rewrite M3'. cbn [n_edges nth_error]. unfold ret at 1. unfold bind at 1. unfold bind at 1. rewrite M2'. cbn [n_edges nth_error]. unfold ret at 1.
      unfold bind. rewrite K7. reflexivity. }
    split; try lia.
    - exact W7.
    - rewrite D7, M1'. cbn [option_map n_t n_edges n_names]. do 2 f_equal. apply map_ren2_id; (rewrite in_app_iff; intros [Q|[Q|[]]]; [revert Q; apply Hnew; lia|lia]).
    - rewrite D7, M3'. cbn [option_map n_t n_edges n_names map]. do 3 f_equal; unfold ren2; rewrite ?Nat.eqb_refl; [|reflexivity].
      destruct (Nat.eqb_spec (s_ne s5) c1); [lia|]. destruct (Nat.eqb_spec (s_ne s5) e2); [lia|]. reflexivity.
    - rewrite D7, M2'. cbn [option_map n_t n_edges n_names map]. do 2 f_equal. rewrite map_ren2_id by (apply Hnew; lia). unfold ren2. rewrite Nat.eqb_refl, orb_true_r. reflexivity.
    - intros m Hm1 Hm3 Hm2.
      assert (s_nodes s5 m = s_nodes s m) as Em by (rewrite E5, E4, E3, E2, E1 by assumption; reflexivity).
      rewrite D7, D6, Em. destruct (s_nodes s m) as [[t es nm]|] eqn:Es; [|reflexivity]. cbn [option_map n_t n_edges n_names]. do 2 f_equal.
      rewrite (@map_ren2_id e1 c0).
      + apply map_ren2_id; [apply (@edges_other R s5 m _ (N3, 1) c1 W5' (proj1 (proj2 L4)) Em Hm3)|apply (@edges_other R s5 m _ (N2, 0) e2 W5' (proj1 (proj2 L2)) Em Hm2)].
      + apply (@edges_other R s5 m _ (N1, length L) e1 W5' (proj1 (proj2 L1)) Em Hm1).
      + apply (@edges_other R s5 m _ (N3, 0) c0 W5' (proj1 (proj2 L3)) Em Hm3).
  Qed.

  Lemma full_eq svdf nkeep n L Rt lb rb s nms t u sv vh rest : split_names n L Rt lb rb s = (s, Some nms) -> tensor_from_edge_order n (L ++ Rt) s = (s, Some t) ->
    svd svdf nkeep t (length L) = (u, sv, vh, rest) ->
    split_node_full_svd svdf nkeep n L Rt lb rb s =
    bind (full_mid n L Rt u (diag_mat sv) vh (fst nms) (match fst nms, lb, rb with Some _, Some x, Some y => Some [x; y] | _, _, _ => None end) (snd nms))
         (fun NN => fresh_edges n ;;; ret (NN, rest)) s.
  Proof.
    intros H1 H2 H3. unfold split_node_full_svd, full_mid. unfold bind at 1. rewrite H1. unfold bind at 1. rewrite H2. rewrite H3. unfold bind.
    repeat (match goal with |- context [match ?m ?x with pair _ _ => _ end] => destruct (m x) as [? [?|]]; [|reflexivity] end). reflexivity.
  Qed.

  Section Node.
    Variables (s : st) (n : nid) (nd : @node R) (L Rt : list eid).
    Hypothesis (W : wf s) (Hn : s_nodes s n = Some nd) (HND : NoDup (L ++ Rt)) (HP : Permutation (L ++ Rt) (n_edges nd)).

    Record full_split_post s' (tl tm tr : tensor R) nml nmm nmr (N1 N3 N2 : nid) (g h : eid) : Prop := {
      fs_wf : wf s'; fs_N1 : ~ is_node s N1; fs_N3 : ~ is_node s N3; fs_N2 : ~ is_node s N2; fs_13 : N1 <> N3; fs_12 : N1 <> N2; fs_32 : N3 <> N2;
      fs_g : s_ne s <= g; fs_h : s_ne s <= h; fs_gh : g <> h;
      fs_n1 : s_nodes s' N1 = Some (Node tl (L ++ [g]) (nm_of nml tl));
      fs_n3 : s_nodes s' N3 = Some (Node tm [g; h] (nm_of nmm tm));
      fs_n2 : s_nodes s' N2 = Some (Node tr (h :: Rt) (nm_of nmr tr));
      fs_other : forall m, m <> N1 -> m <> N3 -> m <> N2 -> m <> n -> s_nodes s' m = s_nodes s m;
      fs_n : exists fs, s_nodes s' n = Some (Node (n_t nd) fs (n_names nd)) /\ forall f, In f fs -> s_ne s <= f /\ open_on s' n f;
      fs_value : forall k T S a, shape tl = map (edim s) L ++ [k] -> ~ In n S -> (forall m, In m S -> is_node s m) -> open_ok s (n :: S) a ->
        (forall b : eid -> nat, (forall e, In e (n_edges nd) -> b e < edim s e) -> elt T (map b (n_edges nd)) =
           nsum k (fun i => nsum k (fun j => elt tl (map b L ++ [i]) *! elt tm [i; j] *! elt tr (j :: map b Rt)))) ->
        value Nat.eq_dec (edim s) ((T, n_edges nd) :: net_of s S) a = netval s' (N1 :: N3 :: N2 :: S) a
    }.

    Lemma full_split_ok tl tm tr nml nmm nmr k A (x : A) : named s n -> shape tl = map (edim s) L ++ [k] -> shape tm = [k; k] -> shape tr = k :: map (edim s) Rt ->
      nm_ok nml tl -> nm_ok nmm tm -> nm_ok nmr tr ->
      exists s' N1 N3 N2 g h, bind (full_mid n L Rt tl tm tr nml nmm nmr) (fun NN => fresh_edges n ;;; ret (NN, x)) s = (s', Some (N1, N3, N2, x)) /\
        full_split_post s' tl tm tr nml nmm nmr N1 N3 N2 g h.
    Proof using W Hn HND HP.
      intros Hnm Htl Htm Htr Hm1 Hm3 Hm2. destruct (drop_ready W Hn HND HP) as (D1 & D2 & D3 & D4).
      destruct (full_mid_ok D1 D2 D3 HND D4 Htl Htm Htr Hm1 Hm3 Hm2) as (s0' & N1 & N3 & N2 & g & h & K & P).
      destruct (@framed_full_mid n L Rt tl tm tr nml nmm nmr s (drop n s) s0' (N1, N3, N2) (@drop_rel R n s D3) K) as (s1 & K1 & Hrel & Hn1).
      rewrite Hn in Hn1. destruct (Hnm nd Hn) as [_ Hlen].
      assert (forall e, In e (n_edges nd) <-> In e (L ++ Rt)) as HI by (intros e; split; apply Permutation_in; [apply Permutation_sym|]; exact HP).
      assert (forall e, In e (n_edges nd) -> exists N j, slot s0' (N, j) = Some e) as Hmoved.
      { intros e He. apply HI in He. apply in_app_or in He. destruct He as [He|He]; apply In_nth_error in He; destruct He as (j & Hj).
        - exists N1, j. unfold slot. cbn. rewrite (fp_n1 P). cbn. rewrite nth_error_app1; [exact Hj|apply nth_error_Some; congruence].
        - exists N2, (S j). unfold slot. cbn. rewrite (fp_n2 P). exact Hj. }
      destruct (@fresh_back R n s1 s0' nd Hrel (fp_wf P) Hn1 (wf_rank W Hn) Hlen) as (s' & K2 & W' & F1 & F2 & F3 & F4).
      { intros e He. destruct (Hmoved e He) as (N & j & Hs). destruct (wf_slot (fp_wf P) Hs) as (ed & E & _). rewrite (rl_edges Hrel), E. discriminate. }
      exists s', N1, N3, N2, g, h. split.
      { unfold bind. rewrite K1, K2. reflexivity. }
      pose proof (fp_N1 P) as O1. pose proof (fp_N2 P) as O2. pose proof (fp_N3 P) as O3. pose proof (fp_g P) as Og. pose proof (fp_h P) as Oh. cbn in O1, O2, O3, Og, Oh, D3.
      assert (s_nodes s' N1 = Some (Node tl (L ++ [g]) (nm_of nml tl))) as G1 by (rewrite F2 by lia; apply (fp_n1 P)).
      assert (s_nodes s' N3 = Some (Node tm [g; h] (nm_of nmm tm))) as G3 by (rewrite F2 by lia; apply (fp_n3 P)).
      assert (s_nodes s' N2 = Some (Node tr (h :: Rt) (nm_of nmr tr))) as G2 by (rewrite F2 by lia; apply (fp_n2 P)).
      assert (forall m, m <> N1 -> m <> N3 -> m <> N2 -> m <> n -> s_nodes s' m = s_nodes s m) as G4.
      { intros m M1 M2 M3 M4. rewrite F2 by exact M4. rewrite (fp_other P M1 M2 M3). cbn. destruct (Nat.eqb_spec m n); [contradiction|reflexivity]. }
      assert (forall m, s_nn s <= m -> ~ is_node s m) as Hnew.
      { intros m Hm Hi. destruct (is_node_Some Hi) as (md & Em). pose proof (wf_nn W Em). lia. }
      assert (forall m md, m <> n -> s_nodes s m = Some md -> s_nodes s' m = Some md) as G5.
      { intros m md Hm Em. pose proof (wf_nn W Em). rewrite G4; [exact Em| | | |exact Hm]; lia. }
      assert (s_ne s <= s_ne s0') as Hmono.
      { assert (slot s0' (N2, 0) = Some h) as Hg by (unfold slot; cbn; rewrite (fp_n2 P); reflexivity). pose proof (slot_lt (fp_wf P) Hg). lia. }
      split; auto; try apply (fp_13 P); try apply (fp_12 P); try apply (fp_32 P); try apply (fp_gh P).
      - exists (seq (s_ne s0') (rank (n_t nd))). split; [exact F1|]. intros f Hf. apply In_nth_error in Hf. destruct Hf as (j & Hj).
        assert (slot s' (n, j) = Some f) as Hs by (unfold slot; cbn; rewrite F1; exact Hj). apply nth_error_seq in Hj. destruct Hj as [Hj ->]. split; [lia|].
        apply (open_new W' Hs). apply F4. exact Hj.
      - intros k' T S a Hk' HnS HS Ho HT. assert (k' = k) as -> by (rewrite Htl in Hk'; apply app_inv_head in Hk'; congruence).
        assert (edim s' g = k) as Hg by (apply (@edim_at R s' N3 _ _ _ 0 g k W' G3 eq_refl); rewrite Htm; reflexivity).
        assert (edim s' h = k) as Hh by (apply (@edim_at R s' N2 _ _ _ 0 h k W' G2 eq_refl); rewrite Htr; reflexivity).
        apply (@part_value R s n nd W Hn s' [N1; N3; N2] [g; h] T S a); auto.
        + intros m [<-|[<-|[<-|[]]]]; assumption.
        + cbn [net_of map]. rewrite (fac_node G1), (fac_node G3), (fac_node G2), !net_labels_cons. cbn [snd n_edges net_labels flat_map]. rewrite app_nil_r, <- app_assoc. cbn [app].
          transitivity (g :: g :: h :: h :: (L ++ Rt)).
          * rewrite <- Permutation_middle. apply perm_skip. rewrite <- Permutation_middle. apply perm_skip. rewrite <- Permutation_middle. apply perm_skip.
            rewrite <- Permutation_middle. apply perm_skip. reflexivity.
          * apply perm_skip. transitivity (h :: g :: h :: L ++ Rt); [apply perm_swap|]. do 3 apply perm_skip. exact HP.
        + constructor; [intros [E|[]]; symmetry in E; exact (fp_gh P E)|repeat constructor; intros []].
        + intros z [<-|[<-|[]]]; assumption.
        + intros e He. apply HI in He. apply in_app_or in He. destruct He as [He|He]; apply In_nth_error in He; destruct He as (j & Hj).
          * apply (@edim_at R s' N1 _ _ _ j e _ W' G1); [rewrite nth_error_app1; [exact Hj|apply nth_error_Some; congruence]|].
            rewrite Htl, nth_error_app1 by (rewrite map_length; apply nth_error_Some; congruence). apply map_nth_error. exact Hj.
          * apply (@edim_at R s' N2 _ _ _ (Datatypes.S j) e _ W' G2); [exact Hj|]. rewrite Htr. cbn [nth_error]. apply map_nth_error. exact Hj.
        + intros b Hb. rewrite (HT b Hb). rewrite esum_cons, Hg. apply nsum_ext. intros i Hi. rewrite esum_cons, Hh. apply nsum_ext. intros j Hj. rewrite esum_nil.
          cbn [net_of map]. rewrite (fac_node G1), (fac_node G2), (fac_node G3). unfold netprod, lprod. cbn [fold_right map]. unfold fval. cbn [fst snd n_t n_edges].
          assert (forall l, ~ In g l -> ~ In h l -> map (upd Nat.eq_dec (upd Nat.eq_dec b g i) h j) l = map b l) as Hu.
          { intros l Hl Hl'. apply map_ext_in. intros z Hz. rewrite !upd_other; [reflexivity|intros ->; contradiction|intros ->; contradiction]. }
          assert (~ In g (L ++ Rt) /\ ~ In h (L ++ Rt)) as [Hgn Hhn].
          { split; intros Q; apply HI in Q; pose proof (slot_lt W (node_edge_slot Hn Q)); lia. }
          rewrite in_app_iff in Hgn, Hhn. rewrite map_app. cbn [map]. rewrite !Hu by tauto.
          rewrite !upd_same. rewrite !(upd_other _ _ (j : nat)) by (apply (fp_gh P)). rewrite upd_same. ring.
    Qed.

    Lemma full_svd_ok svdf nkeep lb rb : named s n -> (forall x, lb = Some x \/ rb = Some x -> ~ In x (n_names nd)) -> (lb <> None -> lb <> rb) ->
      (forall m u sv vh, rank m = 2 -> svdf m = (u, sv, vh) -> is_svd m u sv vh) ->
      exists s' N1 N3 N2 g h tl tm tr M u0 sv0 v0, let k := Nat.min (nkeep sv0) (length sv0) in
        let nml := fst (bond_names nd L Rt lb rb) in let nmr := snd (bond_names nd L Rt lb rb) in
        let nmm := match nml, lb, rb with Some _, Some x, Some y => Some [x; y] | _, _, _ => None end in
        split_node_full_svd svdf nkeep n L Rt lb rb s = (s', Some (N1, N3, N2, skipn (nkeep sv0) sv0)) /\ full_split_post s' tl tm tr nml nmm nmr N1 N3 N2 g h /\
        shape tl = map (edim s) L ++ [k] /\ shape tm = [k; k] /\ shape tr = k :: map (edim s) Rt /\ svdf M = (u0, sv0, v0) /\ shape M = [nprod (map (edim s) L); nprod (map (edim s) Rt)] /\
        (forall i j, i < k -> j < k -> elt tm [i; j] = if Nat.eqb i j then nth i sv0 r0 else r0) /\
        (forall b, (forall e, In e (n_edges nd) -> b e < edim s e) -> elt M [ravel (map (edim s) L) (map b L); ravel (map (edim s) Rt) (map b Rt)] = elt (n_t nd) (map b (n_edges nd))) /\
        forall T, (forall b, (forall e, In e (n_edges nd) -> b e < edim s e) -> elt T (map b (n_edges nd)) = dyads s L Rt k u0 sv0 v0 b) ->
          forall b : eid -> nat, (forall e, In e (n_edges nd) -> b e < edim s e) -> elt T (map b (n_edges nd)) =
           nsum k (fun i => nsum k (fun j => elt tl (map b L ++ [i]) *! elt tm [i; j] *! elt tr (j :: map b Rt))).
    Proof using W Hn HND HP.
      intros Hnm Hb Hlr Hsvd. destruct (Hnm nd Hn) as [_ Hlen].
      set (t := ordered nd L Rt). destruct (svdf (as_matrix t (length L))) as [[u0 sv0] v0] eqn:Eq.
      pose proof (Hsvd (as_matrix t (length L)) u0 sv0 v0 eq_refl Eq) as Hq.
      pose proof (@svd_general R svdf nkeep t (length L) u0 sv0 v0 Eq Hq) as HG. cbv zeta in HG.
      destruct (svd svdf nkeep t (length L)) as [[[u sv] vh] rest] eqn:Et. destruct HG as (S1 & S2 & S3 & S4 & Hprod).
      destruct (fs_ordered W Hn HP) as [Ff Fs]. fold t in Ff, Fs. rewrite Ff, Fs in *.
      set (k := Nat.min (nkeep sv0) (length sv0)) in *.
      assert (shape (diag_mat sv) = [k; k]) as S5 by (unfold diag_mat; cbn; rewrite S3; reflexivity).
      assert (rest = skipn (nkeep sv0) sv0) as ->.
      { unfold svd in Et. rewrite Eq in Et. injection Et as _ _ _ <-. reflexivity. }
      destruct (@bond_names_ok R s n nd L Rt W Hn HND HP lb rb u vh Hnm) as [M1 M2];
        [unfold rank; rewrite S1, app_length, map_length; reflexivity|unfold rank; rewrite S2; cbn; rewrite map_length; reflexivity|exact Hb|].
      set (nms := bond_names nd L Rt lb rb) in *.
      set (nmm := match fst nms, lb, rb with Some _, Some x, Some y => Some [x; y] | _, _, _ => None end).
      assert (nm_ok nmm (diag_mat sv)) as M3.
      { unfold nmm. destruct (fst nms); [|exact I]. destruct lb as [x|]; [|exact I]. destruct rb as [y|]; [|exact I]. split; [|reflexivity].
        constructor; [|repeat constructor; intros []]. intros [->|[]]. apply Hlr; [discriminate|reflexivity]. }
      destruct (full_split_ok (skipn (nkeep sv0) sv0) Hnm S1 S5 S2 M1 M3 M2) as (s' & N1 & N3 & N2 & g & h & K & P).
      exists s', N1, N3, N2, g, h, u, (diag_mat sv), vh, (as_matrix t (length L)), u0, sv0, v0. cbv zeta. fold k.
      split; [|split; [exact P|split; [exact S1|split; [exact S5|split; [exact S2|split; [exact Eq|split; [unfold as_matrix; cbn [shape reshape]; rewrite Ff, Fs; reflexivity|]]]]]]].
      - rewrite (full_eq (names_ok W Hn HND HP lb rb Hlen) (order_ok W Hn HND HP) Et). exact K.
      - assert (forall i, i < k -> nth i sv r0 = nth i sv0 r0) as Hnth by (intros i Hi; rewrite <- S4, app_nth1 by lia; reflexivity).
        split; [|split; [intros b; apply (matrix_elt W Hn HND HP)|]].
        { intros i j Hi Hj. unfold diag_mat. cbn [elt nth]. rewrite Hnth by exact Hi. reflexivity. }
        intros T HT b Hvb. rewrite (HT b Hvb). unfold dyads.
        assert (valid (map b L) (map (edim s) L)) as VL by (apply valid_map; intros e He; apply Hvb, (HIn HP), in_or_app; auto).
        assert (valid (map b Rt) (map (edim s) Rt)) as VR by (apply valid_map; intros e He; apply Hvb, (HIn HP), in_or_app; auto).
        rewrite <- (Hprod _ _ VL VR). apply nsum_ext. intros i Hi.
        rewrite (@nsum_single R k _ i Hi).
        + unfold diag_mat. cbn [elt nth]. rewrite Nat.eqb_refl. reflexivity.
        + intros j Hj Hne. unfold diag_mat. cbn [elt nth]. destruct (Nat.eqb_spec i j); [congruence|]. ring.
    Qed.
  End Node.
End Full.
