(** * GraphBetween: contract_between of two different nodes *)
From Verif Require Import Prelude Algebra Tensor TensorFacts Einsum EinsumFacts NetworkFacts Graph GraphBase GraphContract GraphOps GraphValue GraphOuter.
Set Implicit Arguments.
Unset Strict Implicit.

Lemma insert_nat_perm x l : Permutation (insert_nat x l) (x :: l).
Proof.
  induction l as [|y r IH]; cbn; [reflexivity|]. destruct (Nat.leb x y); [reflexivity|].
  rewrite IH. apply perm_swap.
Qed.
Lemma sort_nat_perm l : Permutation (sort_nat l) l.
Proof. induction l as [|x r IH]; cbn; [reflexivity|]. rewrite insert_nat_perm, IH. reflexivity. Qed.

Lemma map_nindex_self l : NoDup l -> map (fun x => nindex x l) l = seq 0 (length l).
Proof.
  intros H. apply (nth_ext _ _ 0 0); rewrite ?map_length, ?seq_length; [reflexivity|]. intros k Hk.
  rewrite seq_nth by exact Hk. rewrite (nth_indep _ 0 ((fun x => nindex x l) 0)) by (rewrite map_length; exact Hk).
  rewrite (map_nth (fun x => nindex x l)). apply index_of_nth; [exact H|]. exact Hk.
Qed.
Lemma sort_ind_perm ax : NoDup ax -> is_perm (length ax) (map (fun l => nindex l ax) (sort_nat ax)).
Proof. intros H. unfold is_perm. rewrite <- (map_nindex_self H). apply Permutation_map, sort_nat_perm. Qed.

Section GB.
  Context {R : csr}.
  Variable iter : list nat -> list nat.
  Notation st := (@st R).
  Notation M := (@M R).
  Notation node := (@node R).
  Implicit Types (s : st) (e : eid).
  Notation "x <- m ;; k" := (bind m (fun x => k)) (at level 61, m at next level, right associativity).
  Notation "m ;;; k" := (bind m (fun _ => k)) (at level 61, right associativity).

  (** after a contraction: reorder the axes and rename them *)
  Lemma contracted_reorder s s1 s2 olds N perm names :
    contracted s s1 olds N -> ~ In N olds ->
    (exists nd, s_nodes s1 N = Some nd /\ is_perm (length (n_edges nd)) perm /\ reorder_post s1 s2 N nd perm names) ->
    contracted s s2 olds N.
  Proof.
    intros C HN (nd & Hn & Hp & Hr). destruct (reorder_wf (ct_wf C) (@wf_live_at _ _ N (ct_wf C)) Hn Hp Hr) as (W2 & _).
    pose proof Hr as (R1 & R2 & R3 & R4). destruct (ct_next C) as [N1 N2].
    split; auto.
    - apply (ct_new C).
    - split; [exact N1|congruence].
    - rewrite R3, Nat.eqb_refl. eauto.
    - intros m Hm HmN. rewrite R3. destruct (Nat.eqb_spec m N); [contradiction|]. apply (ct_others C); assumption.
    - intros S a HS HNS Ho. rewrite (ct_value C HS HNS Ho). apply (reorder_value a (ct_wf C) W2 Hn Hp HNS Hr).
    - destruct (ct_perm C) as (cut & Hc). exists cut. rewrite Hc. do 2 apply Permutation_app_head.
      cbn [net_of map]. rewrite !net_labels_cons, (fac_node Hn).
      assert (s_nodes s2 N = Some (Node (transpose (n_t nd) perm) (gather 0 (n_edges nd) perm) names)) as Hn2 by (rewrite R3, Nat.eqb_refl; reflexivity).
      rewrite (fac_node Hn2). cbn [snd net_labels flat_map n_edges]. rewrite !app_nil_r. symmetry. apply gather_perm. exact Hp.
    - pose proof (ct_fits C) as F. rewrite (fac_node Hn) in F.
      assert (s_nodes s2 N = Some (Node (transpose (n_t nd) perm) (gather 0 (n_edges nd) perm) names)) as Hn2 by (rewrite R3, Nat.eqb_refl; reflexivity).
      rewrite (fac_node Hn2). cbn [n_t n_edges]. apply fits_transpose; [|exact F]. intros i Hi. apply (is_perm_In i Hp). exact Hi.
  Qed.

  Lemma contracted_names s s1 s2 olds N t es nms nms' :
    contracted s s1 olds N -> s_nodes s1 N = Some (Node t es nms) -> s2 = with_node s1 N (Node t es nms') ->
    contracted s s2 olds N.
  Proof.
    intros C Hn ->. set (s2 := with_node s1 N (Node t es nms')).
    assert (forall m, s_nodes s2 m = if Nat.eqb m N then Some (Node t es nms') else s_nodes s1 m) as H.
    { intros m. cbn. unfold upd. destruct (Nat.eqb_spec m N), (Nat.eq_dec m N); congruence. }
    assert (forall p, slot s2 p = slot s1 p) as Hs.
    { intros [m k]. unfold slot. cbn [fst snd]. rewrite H. destruct (Nat.eqb_spec m N) as [->|]; [|reflexivity]. rewrite Hn. reflexivity. }
    assert (forall p, dimat s2 p = dimat s1 p) as Hd.
    { intros [m k]. unfold dimat. cbn [fst snd]. rewrite H. destruct (Nat.eqb_spec m N) as [->|]; [|reflexivity]. rewrite Hn. reflexivity. }
    pose proof (ct_wf C) as W.
    assert (wf s2) as W2.
    { split.
      - intros m nd E. rewrite H in E. destruct (Nat.eqb_spec m N) as [->|]; [injection E as <-; apply (wf_rank W Hn)|apply (wf_rank W E)].
      - intros m nd E. rewrite H in E. destruct (Nat.eqb_spec m N) as [->|]; [apply (wf_nn W Hn)|apply (wf_nn W E)].
      - apply (wf_ne W).
      - intros p e Hp. rewrite Hs in Hp. destruct (wf_slot W Hp) as (ed & E1 & E2 & E3 & E4 & E5). exists ed.
        repeat split; auto; rewrite ?Hs, ?Hd; apply E5; auto. }
    assert (forall m, fac s2 m = fac s1 m) as Hf.
    { intros m. unfold fac. rewrite H. destruct (Nat.eqb_spec m N) as [->|]; [rewrite Hn|]; reflexivity. }
    split; auto.
    - apply (ct_new C).
    - apply (ct_next C).
    - rewrite H, Nat.eqb_refl. eauto.
    - intros m Hm HmN. rewrite H. destruct (Nat.eqb_spec m N); [contradiction|]. apply (ct_others C); assumption.
    - intros S a HS HNS Ho. rewrite (ct_value C HS HNS Ho).
      assert (net_of s2 (N :: S) = net_of s1 (N :: S)) as En by (apply map_ext; exact Hf).
      unfold netval. rewrite <- En. apply value_ext_dim. intros x Hx. apply (In_net_labels (N :: S) x W2) in Hx.
      destruct Hx as (m & k & _ & Hk). pose proof (edim_dimat W2 Hk) as K2. rewrite Hs in Hk. pose proof (edim_dimat W Hk) as K1.
      rewrite Hd in K2. congruence.
    - destruct (ct_perm C) as (cut & Hc). exists cut. rewrite Hc. cbn [net_of map]. rewrite Hf. reflexivity.
    - rewrite Hf. apply (ct_fits C).
  Qed.

  (** contracting all the edges [cut] shared by u and v *)
  Lemma between_core u v du dv axu axv cut s s1 s2 N (x : unit) :
    wf s -> u <> v -> s_nodes s u = Some du -> s_nodes s v = Some dv ->
    NoDup cut -> (forall e, In e cut -> exists ed, s_edges s e = Some ed /\ joins ed u v = true) ->
    (forall j, In j axu -> j < length (n_edges du)) -> (forall j, In j axv -> j < length (n_edges dv)) ->
    gather 0 (n_edges du) axu = cut -> gather 0 (n_edges dv) axv = cut ->
    let ind := map (fun l => nindex l axu) (sort_nat axu) in
    new_node (tensordot (n_t du) (n_t dv) (gather 0 axu ind) (gather 0 axv ind)) None s = (s1, Some N) ->
    remove_edges cut u v N s1 = (s2, Some x) ->
    contracted s s2 [u; v] N /\
    exists nms, s_nodes s2 N = Some (Node (tensordot (n_t du) (n_t dv) (gather 0 axu ind) (gather 0 axv ind))
                                          (kept_of cut (n_edges du) ++ kept_of cut (n_edges dv)) nms).
  Proof.
    intros W Hne Hu Hv Nc Hj Bu Bv Gu Gv ind Hnew Hrem.
    assert (NoDup axu) as Nu by (apply (@NoDup_gather_inj (n_edges du)); rewrite Gu; exact Nc).
    assert (NoDup axv) as Nv by (apply (@NoDup_gather_inj (n_edges dv)); rewrite Gv; exact Nc).
    assert (length axu = length cut) as Lu by (rewrite <- Gu, gather_length; reflexivity).
    assert (length axv = length cut) as Lv by (rewrite <- Gv, gather_length; reflexivity).
    assert (is_perm (length cut) ind) as Pi by (rewrite <- Lu; apply (sort_ind_perm Nu)).
    assert (Permutation (gather 0 axu ind) axu) as Pu by (apply gather_perm; rewrite Lu; exact Pi).
    assert (Permutation (gather 0 axv ind) axv) as Pv by (apply gather_perm; rewrite Lv; exact Pi).
    assert (gather 0 (n_edges du) (gather 0 axu ind) = gather 0 cut ind) as Eu.
    { rewrite <- gather_gather by (intros j K; rewrite Lu; apply (is_perm_In j Pi); exact K). rewrite Gu. reflexivity. }
    assert (gather 0 (n_edges dv) (gather 0 axv ind) = gather 0 cut ind) as Ev.
    { rewrite <- gather_gather by (intros j K; rewrite Lv; apply (is_perm_In j Pi); exact K). rewrite Gv. reflexivity. }
    assert (forall j e, nth_error (n_edges du) j = Some e -> In e cut -> In j axu) as Uu.
    { intros j e He Hin. destruct (Hj e Hin) as (ed & E & J).
      destruct (two_ends W Hne (ex_intro _ (u, j) (slot_intro Hu He)) E J) as (i & i' & _ & _ & _ & Ui & _).
      rewrite (Ui j (slot_intro Hu He)). rewrite <- Gu in Hin. apply In_gather in Hin. destruct Hin as (k & Hk & Ek).
      rewrite <- (Ui k); [exact Hk|]. apply (slot_intro Hu). rewrite Ek. apply nth_error_nth'. auto. }
    assert (forall j e, nth_error (n_edges dv) j = Some e -> In e cut -> In j axv) as Uv.
    { intros j e He Hin. destruct (Hj e Hin) as (ed & E & J).
      destruct (two_ends W Hne (ex_intro _ (v, j) (slot_intro Hv He)) E J) as (i & i' & _ & _ & _ & _ & Ui).
      rewrite (Ui j (slot_intro Hv He)). rewrite <- Gv in Hin. apply In_gather in Hin. destruct Hin as (k & Hk & Ek).
      rewrite <- (Ui k); [exact Hk|]. apply (slot_intro Hv). rewrite Ek. apply nth_error_nth'. auto. }
    destruct (new_node_wf W Hnew) as (W1 & Hlon & EN & Hnone & Hnn & (nms & Hlen & _ & _ & HN) & Hold & _).
    destruct (@pair_step _ s s1 s2 u v N None cut du dv (gather 0 axu ind) (gather 0 axv ind) W Hu Hv Hne) as (P1 & P2 & P3 & P4 & (nms' & P5 & _) & P6 & P7 & P8 & P9 & P10).
    - intros j K. apply Bu. apply (Permutation_in _ Pu). exact K.
    - intros j K. apply Bv. apply (Permutation_in _ Pv). exact K.
    - congruence.
    - rewrite Eu. apply gather_perm. exact Pi.
    - exact Nc.
    - intros j Lj K. apply (Permutation_in _ (Permutation_sym Pu)). apply (Uu j _ (nth_error_nth' _ 0 Lj) K).
    - intros j Lj K. apply (Permutation_in _ (Permutation_sym Pv)). apply (Uv j _ (nth_error_nth' _ 0 Lj) K).
    - exact Hnew.
    - intros Hl dN HdN HeN.
      assert (N <> u) by (intros K; rewrite K in Hnone; congruence).
      assert (N <> v) by (intros K; rewrite K in Hnone; congruence).
      apply (@remove_edges_inv _ cut u v N s1 s2 x du dv dN); auto.
      + rewrite Hold; auto.
      + rewrite Hold; auto.
      + rewrite HeN. exact Hl.
    - split; [|exists nms'; rewrite <- P7; auto].
      split; auto.
      + eauto.
      + intros m Hm. apply P6; intros ->; apply Hm; cbn; auto.
      + intros S a HS HNS _. apply P8; assumption.
  Qed.

  Lemma classify_state n1 n2 shared i order s s' q : classify n1 n2 shared i order s = (s', Some q) -> s' = s.
  Proof.
    revert i s s' q. induction order as [|e r IH]; intros i s s' q H; cbn [classify] in H.
    - injection H as <- _. reflexivity.
    - apply bind_inv in H. destruct H as (u & s1 & H1 & H). apply guard_inv in H1. destruct H1 as [_ ->].
      apply bind_inv in H. destruct H as (ed & s1 & H1 & H). injection H1 as <- _.
      destruct (mem n1 _).
      + apply bind_inv in H. destruct H as (p & s1 & H1 & H). apply IH in H1. subst s1. injection H as <- _. reflexivity.
      + destruct (mem n2 _); [|discriminate].
        apply bind_inv in H. destruct H as (p & s1 & H1 & H). apply IH in H1. subst s1. injection H as <- _. reflexivity.
  Qed.

  Lemma shared_spec s n1 n2 d1 e : s_nodes s n1 = Some d1 ->
    In e (shared_list s n1 n2) <-> In e (n_edges d1) /\ exists ed, s_edges s e = Some ed /\ joins ed n1 n2 = true.
  Proof.
    intros H. unfold shared_list. rewrite H, nodup_In, filter_In. split.
    - intros [H1 H2]. split; [exact H1|]. destruct (s_edges s e) as [ed|]; [eauto|discriminate].
    - intros (H1 & ed & -> & H2). auto.
  Qed.

  (** the two finishing steps of contract_between *)
  Lemma between_finish s s1 s' olds N order names (r : nid) :
    wf s -> contracted s s1 olds N -> ~ In N olds ->
    ((match order with [] => ret tt | _ => reorder_edges N order end) ;;;
     (match names with
      | None => ret tt
      | Some l =>
         nd <- get_node N ;;
         guard (nodupb l && Nat.eqb (length l) (rank (n_t nd))) ;;;
         set_node N (Node (n_t nd) (n_edges nd) l)
      end) ;;;
     ret N) s1 = (s', Some r) ->
    r = N /\ contracted s s' olds N /\
    exists nd1 nd', s_nodes s1 N = Some nd1 /\ s_nodes s' N = Some nd' /\
      (order = [] -> n_edges nd' = n_edges nd1 /\ n_t nd' = n_t nd1) /\
      (order <> [] -> n_edges nd' = order /\ Permutation order (n_edges nd1)) /\
      (forall l, names = Some l -> n_names nd' = l).
  Proof.
    intros W C HN H.
    apply bind_inv in H. destruct H as (u & s2 & H1 & H). apply bind_inv in H. destruct H as (u2 & s3 & H2 & H). injection H as <- <-.
    split; [reflexivity|].
    destruct (ct_node C) as [nd1 Hnd1].
    assert (contracted s s2 olds N /\ exists nd2, s_nodes s2 N = Some nd2 /\
       (order = [] -> n_edges nd2 = n_edges nd1 /\ n_t nd2 = n_t nd1) /\ (order <> [] -> n_edges nd2 = order /\ Permutation order (n_edges nd1))) as (C2 & nd2 & Hnd2 & K1 & K2).
    { destruct order as [|e0 r].
      - injection H1 as <- _. split; [exact C|]. exists nd1. split; [exact Hnd1|]. split; [auto|congruence].
      - set (order := e0 :: r) in *. apply reorder_edges_inv in H1. destruct H1 as (nd & Hn & Hp & Ho & Hr).
        rewrite Hnd1 in Hn. injection Hn as <-.
        split; [eapply (@contracted_reorder s s1 s2 olds N _ _ C HN); exists nd1; split; [exact Hnd1|]; split; [exact Hp|exact Hr]|].
        destruct Hr as (_ & _ & R3 & _). specialize (R3 N). rewrite Nat.eqb_refl in R3. eexists. split; [exact R3|]. cbn [n_edges n_t].
        split; [discriminate|]. intros _. split; [symmetry; exact Ho|]. rewrite Ho. apply gather_perm. exact Hp. }
    destruct names as [l|].
    - apply bind_inv in H2. destruct H2 as (nd & s4 & H3 & H2). apply get_node_inv in H3. destruct H3 as [-> H3].
      rewrite Hnd2 in H3. injection H3 as <-.
      apply bind_inv in H2. destruct H2 as (u3 & s4 & H3 & H2). apply guard_inv in H3. destruct H3 as [_ ->].
      apply set_node_inv in H2. destruct nd2 as [t es nms]. cbn [n_t n_edges] in *.
      split; [apply (contracted_names C2 Hnd2 H2)|].
      exists nd1, (Node t es l). split; [exact Hnd1|]. split.
      + rewrite H2. cbn. apply upd_same.
      + cbn. split; [auto|]. split; [auto|]. intros l' E. congruence.
    - injection H2 as <- _. split; [exact C2|]. exists nd1, nd2. repeat split; auto; try (apply K1; assumption); try (apply K2; assumption); discriminate.
  Qed.

  (** the part of contract_between for two different nodes that makes the new node (2024-2083),
      with the shared edges in the order the caller enumerated them *)
  Definition pair_front (n1 n2 : nid) (d1 d2 : node) (ao : bool) (order shared : list eid) : M nid :=
    match shared with
    | [] => guard ao ;;; outer_product n1 n2 None
    | _ =>
        axes <- (fun s => (s, Some (map (orient n1 s) shared))) ;;
        swap <- (match order with
                 | [] => ret false
                 | _ => q <- classify n1 n2 shared 0 order ;;
                        ret (negb (Nat.eqb (length (fst q)) 0) && negb (Nat.eqb (length (snd q)) 0)
                             && mean_gt (fst q) (snd q))
                 end) ;;
        let ax1 := if swap : bool then map snd axes else map fst axes in
        let ax2 := if swap : bool then map fst axes else map snd axes in
        let ind := map (fun l => nindex l ax1) (sort_nat ax1) in
        let u := if swap : bool then n2 else n1 in
        let v := if swap : bool then n1 else n2 in
        let du := if swap : bool then d2 else d1 in
        let dv := if swap : bool then d1 else d2 in
        new <- new_node (tensordot (n_t du) (n_t dv) (gather 0 ax1 ind) (gather 0 ax2 ind)) None ;;
        remove_edges shared u v new ;;;
        ret new
    end.

  Lemma between_mid n1 n2 d1 d2 ao order cut s s1 N' :
    wf s -> n1 <> n2 -> s_nodes s n1 = Some d1 -> s_nodes s n2 = Some d2 -> Permutation cut (shared_list s n1 n2) ->
    pair_front n1 n2 d1 d2 ao order cut s = (s1, Some N') ->
    contracted s s1 [n1; n2] N' /\ exists nd, s_nodes s1 N' = Some nd /\
       Permutation (n_edges nd) (kept_of cut (n_edges d1) ++ kept_of cut (n_edges d2)) /\
       (order = [] -> n_edges nd = kept_of cut (n_edges d1) ++ kept_of cut (n_edges d2)).
  Proof.
    intros W Hne Hn1 Hn2 Pc H1. unfold pair_front in H1.
    assert (NoDup cut) as Nc by (apply (Permutation_NoDup (Permutation_sym Pc)); unfold shared_list; rewrite Hn1; apply NoDup_nodup).
    assert (forall e, In e cut <-> In e (shared_list s n1 n2)) as Ic by (intros e; split; apply Permutation_in; [|symmetry]; exact Pc).
    destruct cut as [|c0 cr] eqn:Ecut.
      - apply bind_inv in H1. destruct H1 as (u & s2 & H2 & H1). apply guard_inv in H2. destruct H2 as [_ ->].
        apply outer_step in H1; auto. destruct H1 as (C & d1' & d2' & nms & E1 & E2 & E3). rewrite Hn1 in E1. rewrite Hn2 in E2.
        injection E1 as <-. injection E2 as <-. split; [exact C|]. eexists. split; [exact E3|]. cbn [n_edges]. rewrite !kept_nil. auto.
      - rewrite <- Ecut in *. clear c0 cr Ecut. apply bind_inv in H1. destruct H1 as (axes & s2 & H2 & H1). injection H2 as <- <-.
        apply bind_inv in H1. destruct H1 as (swap & s2 & H2 & H1).
        assert (s2 = s /\ (order = [] -> swap = false)) as [-> Hsw].
        { destruct order as [|o0 or].
          - injection H2 as <- <-. auto.
          - apply bind_inv in H2. destruct H2 as (q & s3 & H3 & H2). apply classify_state in H3. subst s3.
            injection H2 as <- _. split; [reflexivity|discriminate]. }
        clear H2.
        assert (forall e, In e cut -> exists i j, nth_error (n_edges d1) i = Some e /\ nth_error (n_edges d2) j = Some e /\ orient n1 s e = (i, j)) as Hor.
        { intros e He. apply Ic in He. apply (shared_spec n2 e Hn1) in He. destruct He as (Hin & ed & E & J).
          apply In_nth_error in Hin. destruct Hin as [k Hk].
          destruct (two_ends W Hne (ex_intro _ (n1, k) (slot_intro Hn1 Hk)) E J) as (i & j & S1 & S2 & O & _).
          exists i, j. apply slot_node in S1, S2. destruct S1 as (x1 & X1 & S1). destruct S2 as (x2 & X2 & S2).
          rewrite Hn1 in X1. rewrite Hn2 in X2. injection X1 as <-. injection X2 as <-. auto. }
        assert (forall e, In e cut -> exists ed, s_edges s e = Some ed /\ joins ed n1 n2 = true) as Hj.
        { intros e He. apply Ic in He. apply (shared_spec n2 e Hn1) in He. apply He. }
        assert (forall j, In j (map fst (map (orient n1 s) cut)) -> j < length (n_edges d1)) as B1.
        { intros j Hjn. rewrite map_map in Hjn. apply in_map_iff in Hjn. destruct Hjn as (e & <- & He).
          destruct (Hor e He) as (i & k & K1 & K2 & ->). cbn. apply nth_error_Some. congruence. }
        assert (forall j, In j (map snd (map (orient n1 s) cut)) -> j < length (n_edges d2)) as B2.
        { intros j Hjn. rewrite map_map in Hjn. apply in_map_iff in Hjn. destruct Hjn as (e & <- & He).
          destruct (Hor e He) as (i & k & K1 & K2 & ->). cbn. apply nth_error_Some. congruence. }
        assert (gather 0 (n_edges d1) (map fst (map (orient n1 s) cut)) = cut) as G1.
        { unfold gather. rewrite !map_map. rewrite <- (map_id cut) at 2. apply map_ext_in. intros e He.
          destruct (Hor e He) as (i & k & K1 & K2 & ->). cbn. apply (nth_error_nth _ _ 0 K1). }
        assert (gather 0 (n_edges d2) (map snd (map (orient n1 s) cut)) = cut) as G2.
        { unfold gather. rewrite !map_map. rewrite <- (map_id cut) at 2. apply map_ext_in. intros e He.
          destruct (Hor e He) as (i & k & K1 & K2 & ->). cbn. apply (nth_error_nth _ _ 0 K2). }
        set (ax1 := map fst (map (orient n1 s) cut)) in *. set (ax2 := map snd (map (orient n1 s) cut)) in *.
        cbn zeta in H1. apply bind_inv in H1. destruct H1 as (N2 & s2 & H2 & H1).
        apply bind_inv in H1. destruct H1 as (u & s3 & H3 & H1). injection H1 as <- <-.
        destruct swap.
        + destruct (@between_core n2 n1 d2 d1 ax2 ax1 cut s s2 s3 N2 u) as (C & nms & HN); auto.
          { intros e He. destruct (Hj e He) as (ed & K1 & K2). exists ed. rewrite joins_sym. auto. }
          split.
          * split; try apply C.
            -- intros m Hm. apply (ct_others C). cbn in *. tauto.
            -- intros S a HS HNS Ho. rewrite <- (@ct_value _ _ _ _ _ C S a); [|apply (Permutation_NoDup (l := [n1; n2] ++ S)); [apply perm_swap|exact HS]|exact HNS|revert Ho; apply open_ok_perm; apply perm_swap].
               apply netval_perm. apply perm_swap.
            -- destruct (ct_perm C) as (cc & Hc). exists cc. rewrite <- Hc. cbn [net_of map]. rewrite !net_labels_cons. cbn [net_labels flat_map]. rewrite !app_nil_r. apply Permutation_app_comm.
          * eexists. split; [exact HN|]. cbn [n_edges]. split; [apply Permutation_app_comm|]. intros Ho. specialize (Hsw Ho). discriminate.
        + destruct (@between_core n1 n2 d1 d2 ax1 ax2 cut s s2 s3 N2 u) as (C & nms & HN); auto.
          split; [exact C|]. eexists. split; [exact HN|]. cbn [n_edges]. auto.
  Qed.

  Theorem between_step n1 n2 ao order names s s' N :
    (forall l, Permutation (iter l) l) ->
    wf s -> n1 <> n2 -> contract_between iter n1 n2 ao order names s = (s', Some N) ->
    contracted s s' [n1; n2] N /\
    exists d1 d2 nd', s_nodes s n1 = Some d1 /\ s_nodes s n2 = Some d2 /\ s_nodes s' N = Some nd' /\
      Permutation (n_edges nd') (kept_of (shared_list s n1 n2) (n_edges d1) ++ kept_of (shared_list s n1 n2) (n_edges d2)) /\
      (order = [] -> n_edges nd' = kept_of (shared_list s n1 n2) (n_edges d1) ++ kept_of (shared_list s n1 n2) (n_edges d2)) /\
      (order <> [] -> n_edges nd' = order) /\ (forall l, names = Some l -> n_names nd' = l).
  Proof.
    intros Hit W Hne H. unfold contract_between in H.
    apply bind_inv in H. destruct H as (d1 & s1 & H1 & H). apply get_node_inv in H1. destruct H1 as [-> Hn1].
    apply bind_inv in H. destruct H as (d2 & s1 & H1 & H). apply get_node_inv in H1. destruct H1 as [-> Hn2].
    apply bind_inv in H. destruct H as (shared & s1 & H1 & H).
    unfold get_shared_edges in H1. apply bind_inv in H1. destruct H1 as (d0 & s0 & H0 & H1). apply get_node_inv in H0. destruct H0 as [-> _].
    injection H1 as <- <-. set (cut := iter (shared_list s n1 n2)) in *.
    assert (Permutation cut (shared_list s n1 n2)) as Pc by apply Hit.
    assert (NoDup cut) as Nc by (apply (Permutation_NoDup (Permutation_sym Pc)); unfold shared_list; rewrite Hn1; apply NoDup_nodup).
    assert (forall e, In e cut <-> In e (shared_list s n1 n2)) as Ic by (intros e; split; apply Permutation_in; [|symmetry]; exact Pc).
    assert (forall es, kept_of cut es = kept_of (shared_list s n1 n2) es) as Kc.
    { intros es. unfold kept_of. apply filter_ext. intros e. f_equal.
      destruct (mem e cut) eqn:E1, (mem e (shared_list s n1 n2)) eqn:E2; auto.
      - apply mem_In in E1. apply Ic in E1. apply mem_In in E1. congruence.
      - apply mem_In in E2. apply Ic in E2. apply mem_In in E2. congruence. }
    apply bind_inv in H. destruct H as (N' & s1 & H1 & H).
    destruct (Nat.eqb_spec n1 n2); [contradiction|].
    destruct (@between_mid n1 n2 d1 d2 ao order cut s s1 N' W Hne Hn1 Hn2 Pc H1) as (C & nd & Hnd & Pnd & End). clear H1.
    assert (~ In N' [n1; n2]) as HN'.
    { pose proof (ct_new C) as K. intros [<-|[<-|[]]]; congruence. }
    destruct (between_finish W C HN' H) as (-> & C' & nd1 & nd' & K1 & K2 & K3 & K4 & K5).
    split; [exact C'|]. rewrite Hnd in K1. injection K1 as <-.
    exists d1, d2, nd'. rewrite <- !Kc. repeat (split; [assumption|]). destruct order as [|o0 or].
    - destruct (K3 eq_refl) as [-> _]. repeat split; auto. congruence.
    - destruct (K4 ltac:(discriminate)) as [-> Po]. split; [rewrite Po; exact Pnd|]. split; [discriminate|]. auto.
  Qed.
End GB.
