(** * CopyTensorStep: the heap and the value of the network after contract_copy_node *)
From Coq Require Import Permutation.
From Verif Require Import Prelude Algebra Tensor TensorFacts Einsum EinsumFacts NetworkFacts Graph GraphBase GraphContract GraphOps GraphValue GraphOuter GraphConnect GraphQuery GraphQueryFacts GraphCompound CopyTensor CopyTensorSpec CopyTensorSum CopyTensorNet CopyTensorMove.
Set Implicit Arguments.
Unset Strict Implicit.
Local Open Scope csr_scope.

Definition pdec (p q : nid * nat) : {p = q} + {p <> q}.
Proof. decide equality; apply Nat.eq_dec. Defined.

Lemma combine_index A (dec : forall x y : A, {x = y} + {x <> y}) (l : list A) : NoDup l ->
  combine l (seq 0 (length l)) = map (fun x => (x, index_of dec x l)) l.
Proof.
  intros N. destruct l as [|x0 l0] eqn:El; [reflexivity|]. rewrite <- El in *.
  apply (@nth_ext _ _ _ (x0, 0) (x0, index_of dec x0 l)).
  - rewrite combine_length, seq_length, map_length. lia.
  - rewrite combine_length, seq_length, Nat.min_id. intros k Hk. rewrite combine_nth by (rewrite seq_length; reflexivity).
    rewrite (@map_nth _ _ (fun x => (x, index_of dec x l))), seq_nth by exact Hk. f_equal. symmetry. apply index_of_nth; assumption.
Qed.
Lemma combine_map_l A B C (f : A -> B) (l : list A) (m : list C) : combine (map f l) m = map (fun x => (f (fst x), snd x)) (combine l m).
Proof. revert m. induction l as [|x l IH]; intros [|y m]; cbn; [reflexivity..|]. rewrite IH. reflexivity. Qed.
Lemma filter_both A (p : A -> bool) l : Permutation (filter (fun x => negb (p x)) l ++ filter p l) l.
Proof.
  induction l as [|x l IH]; [constructor|]. cbn [filter]. destruct (p x); cbn [negb].
  - eapply perm_trans; [apply Permutation_sym, Permutation_middle|]. constructor. exact IH.
  - cbn [app]. constructor. exact IH.
Qed.
Lemma count_map_filter A (f : A -> nat) l x : count_occ Nat.eq_dec (map f l) x = length (filter (fun q => f q =? x) l).
Proof.
  induction l as [|y l IH]; [reflexivity|]. cbn [map count_occ filter]. destruct (Nat.eq_dec (f y) x) as [E|E], (Nat.eqb_spec (f y) x); try congruence; cbn [length]; rewrite IH; reflexivity.
Qed.

Section Step.
  Context {R : csr}.
  Variable letters : nat.
  Notation st := (@st R).
  Implicit Types (s : st).

  (** the edge in a slot, and the slots of the nodes PS whose edges are not in [cut], in order *)
  Definition se s (q : nid * nat) : eid := nth (snd q) (edges_at0 s (fst q)) 0.
  Definition slots s (cut : list eid) (PS : list nid) : list (nid * nat) :=
    flat_map (fun p => map (fun j => (p, j)) (filter (keepP cut (edges_at0 s p)) (seq 0 (length (edges_at0 s p))))) PS.

  Lemma slot_edges_at0 s q e : slot s q = Some e <-> snd q < length (edges_at0 s (fst q)) /\ se s q = e.
  Proof.
    unfold slot, se, edges_at0. destruct (s_nodes s (fst q)) as [nd|]; cbn [length]; [|split; [discriminate | intros [H _]; lia]].
    split.
    - intros H. split; [apply nth_error_Some; congruence|]. apply nth_error_nth_some, H.
    - intros [H <-]. apply nth_error_nth'. exact H.
  Qed.
  Lemma slots_In s cut PS q : In q (slots s cut PS) <-> In (fst q) PS /\ exists e, slot s q = Some e /\ ~ In e cut.
  Proof.
    destruct q as [p j]. unfold slots. rewrite in_flat_map. split.
    - intros (p' & Hp & H). apply in_map_iff in H. destruct H as (j' & E & H). injection E as <- <-. apply filter_In in H. destruct H as [H K]. apply in_seq in H.
      split; [exact Hp|]. exists (se s (p', j')). split; [apply slot_edges_at0; cbn; split; [lia | reflexivity]|].
      unfold keepP in K. apply Bool.negb_true_iff in K. apply mem_nIn in K. exact K.
    - intros [Hp (e & H & K)]. cbn [fst] in Hp. apply slot_edges_at0 in H. cbn [fst snd] in H. destruct H as [H E]. exists p. split; [exact Hp|].
      apply in_map_iff. exists j. split; [reflexivity|]. apply filter_In. split; [apply in_seq; lia|]. unfold keepP. apply Bool.negb_true_iff, mem_nIn. unfold se in E. cbn [fst snd] in E. rewrite E. exact K.
  Qed.
  Lemma slots_NoDup s cut PS : NoDup PS -> NoDup (slots s cut PS).
  Proof.
    unfold slots. induction PS as [|p PS IH]; intros N; [constructor|]. inversion N as [|? ? N1 N2]; subst. cbn [flat_map]. apply NoDup_app_iff. split; [|split; [apply IH, N2|]].
    - apply FinFun.Injective_map_NoDup; [intros a b E; congruence|]. apply NoDup_filter, seq_NoDup.
    - intros q H1 H2. apply in_map_iff in H1. destruct H1 as (j & <- & _). apply (proj1 (slots_In s cut PS (p, j))) in H2. destruct H2 as [H2 _]. contradiction.
  Qed.
  Lemma slots_kept s cut PS : keptE s cut PS = map (se s) (slots s cut PS).
  Proof.
    unfold keptE, slots. induction PS as [|p PS IH]; [reflexivity|]. cbn [flat_map]. rewrite map_app, IH, kept_gather. f_equal.
    unfold gather. rewrite map_map. reflexivity.
  Qed.
  Lemma slots_moved s cut PS (tch : eid -> bool) : (forall p e, In p PS -> In e (edges_at0 s p) -> tch e = mem e cut) ->
    moved tch s PS = map (fun q => (se s q, fst q)) (slots s cut PS).
  Proof.
    unfold moved, slots. induction PS as [|p PS IH]; intros H; [reflexivity|]. cbn [flat_map]. rewrite map_app, IH by (intros; eapply H; [right|]; eassumption). f_equal.
    rewrite map_map. unfold se. cbn [fst snd].
    assert (filter (fun e => negb (tch e)) (edges_at0 s p) = kept_of cut (edges_at0 s p)) as ->.
    { unfold kept_of. apply filter_ext_in. intros e He. rewrite (H p e); [reflexivity | left; reflexivity | exact He]. }
    rewrite kept_gather. unfold gather. rewrite map_map. reflexivity.
  Qed.
  Lemma se_slot s p e : slot s p = Some e -> se s p = e.
  Proof. intros H. apply slot_edges_at0 in H. apply H. Qed.

  Lemma partners_from_ext c es d s s1 : (forall e, In e es -> s_edges s1 e = s_edges s e) -> forall s' ps,
    partners_from c es d s = (s', Some ps) -> partners_from c es d s1 = (s1, Some ps).
  Proof.
    revert d. induction es as [|e es IH]; intros d H s' ps E; cbn [partners_from] in *; [injection E as _ <-; reflexivity|].
    unfold bind in *. unfold get_edge in *. rewrite (H e) by (left; reflexivity). destruct (s_edges s e) as [ed|]; [|discriminate]. destruct (e_dis ed); [discriminate|].
    assert (forall e, In e es -> s_edges s1 e = s_edges s e) as H' by (intros; apply H; right; assumption).
    destruct (e_2 ed) as [[n2 a2]|]; [|discriminate]. destruct ((e_n1 ed =? c) && (n2 =? c)); [eapply IH; eassumption|]. destruct (e_n1 ed =? c); [eapply IH; eassumption|].
    unfold guard in *. destruct (n2 =? c); [|discriminate]. unfold ret in *. eapply IH; eassumption.
  Qed.
  Lemma get_partners_ext c s s1 s' ps nd : s_nodes s c = Some nd -> s_nodes s1 c = Some nd -> (forall e, In e (n_edges nd) -> s_edges s1 e = s_edges s e) ->
    get_partners c s = (s', Some ps) -> get_partners c s1 = (s1, Some ps).
  Proof.
    intros H1 H2 H3 H. unfold get_partners, bind, get_node in *. rewrite H1 in H. rewrite H2. eapply partners_from_ext; eassumption.
  Qed.
  Lemma touches_spec ed c : touches ed c = true <-> exists i, In (c, i) (ends ed).
  Proof.
    unfold touches, ends. rewrite Bool.orb_true_iff. split.
    - intros [H|H]; [apply Nat.eqb_eq in H; rewrite H; eexists; left; reflexivity|]. destruct (e_2 ed) as [[n2 a2]|]; [|discriminate]. apply Nat.eqb_eq in H. subst. eexists. right. left. reflexivity.
    - intros (i & [H|H]); [injection H as <- _; left; apply Nat.eqb_refl|]. destruct (e_2 ed) as [[n2 a2]|]; [|destruct H]. destruct H as [H|[]]. injection H as <- _. right. apply Nat.eqb_refl.
  Qed.
  Lemma wf_touches s c nc q e ed : wf s -> s_nodes s c = Some nc -> slot s q = Some e -> s_edges s e = Some ed -> touches ed c = mem e (n_edges nc).
  Proof.
    intros W Hc Hq He. apply Bool.eq_true_iff_eq. rewrite touches_spec, mem_In. split.
    - intros (i & Hi). pose proof (ends_live W Hq He Hi) as K. unfold slot in K. cbn [fst snd] in K. rewrite Hc in K. apply nth_error_In in K. exact K.
    - intros H. apply In_nth_error in H. destruct H as (i & Hi). exists i. apply (live_in_ends (s := s) (e := e) W); [|exact He]. unfold slot. cbn [fst snd]. rewrite Hc. exact Hi.
  Qed.

  (** the labels of the copy node and its partners: every edge of the copy node twice, and the rest *)
  Lemma copy_labels s c nc ps : wf s -> s_nodes s c = Some nc -> partners s c ps ->
    Permutation (net_labels (net_of s (c :: map fst ps))) (nodup Nat.eq_dec (n_edges nc) ++ nodup Nat.eq_dec (n_edges nc) ++ keptE s (n_edges nc) (map fst ps)).
  Proof.
    intros W Hc P. set (PS := map fst ps) in *. set (cut := n_edges nc).
    assert (NoDup (c :: PS)) as ND by (constructor; [apply (pt_self P) | apply (pt_nodup P)]).
    assert (net_labels (net_of s (c :: PS)) = map (se s) (slots s [] (c :: PS))) as ->.
    { rewrite net_labels_edges, <- slots_kept. unfold keptE. apply flat_map_ext. intros p. unfold kept_of. generalize (edges_at0 s p). intros l. cbn [mem]. induction l as [|y l IHl]; [reflexivity|]. cbn [filter negb]. rewrite <- IHl. reflexivity. }
    apply (Permutation_count_occ Nat.eq_dec). intros x. rewrite !count_occ_app, slots_kept, !count_map_filter.
    destruct (in_dec Nat.eq_dec x cut) as [Hx|Hx].
    - assert (count_occ Nat.eq_dec (nodup Nat.eq_dec cut) x = 1) as -> by (apply cnt_NoDup_in; [apply NoDup_nodup | apply nodup_In, Hx]).
      assert (filter (fun q => se s q =? x) (slots s cut PS) = []) as ->.
      { destruct (filter _ _) as [|q l] eqn:E; [reflexivity|]. assert (In q (filter (fun q => se s q =? x) (slots s cut PS))) as K by (rewrite E; left; reflexivity). apply filter_In in K. destruct K as [K1 K2].
        apply slots_In in K1. destruct K1 as [_ (e & K1 & K3)]. apply Nat.eqb_eq in K2. apply se_slot in K1. congruence. }
      destruct (In_nth_error _ _ Hx) as (i & Hi). assert (slot s (c, i) = Some x) as Si by (unfold slot; cbn [fst snd]; rewrite Hc; exact Hi).
      destruct (pt_joined P (e := x)) as (ed & q2 & He & E2); [exists i; exact Si|].
      destruct (wf_slot W Si) as (ed' & He' & _ & _ & NDe & _). assert (ed' = ed) as -> by congruence.
      assert (Permutation (filter (fun q => se s q =? x) (slots s [] (c :: PS))) (ends ed)) as Pm.
      { apply NoDup_Permutation; [apply NoDup_filter, slots_NoDup, ND | exact NDe |]. intros q. rewrite filter_In, slots_In, Nat.eqb_eq. split.
        - intros [[H1 (e & H2 & _)] H3]. assert (e = x) as -> by (apply se_slot in H2; congruence). exact (live_in_ends W H2 He).
        - intros H. pose proof (ends_live W Si He H) as K. split; [|apply se_slot, K]. split; [|exists x; split; [exact K | intros []]].
          destruct (pt_all P (ex_intro _ i Si) K) as [E|E]; [left; symmetry; exact E | right; exact E]. }
      rewrite (Permutation_length Pm). unfold ends. rewrite E2. reflexivity.
    - assert (count_occ Nat.eq_dec (nodup Nat.eq_dec cut) x = 0) as -> by (apply count_occ_not_In; rewrite nodup_In; exact Hx). cbn [Nat.add].
      f_equal. assert (forall l, filter (fun q => se s q =? x) l = filter (fun q => se s q =? x) l) as _ by reflexivity.
      assert (slots s [] (c :: PS) = slots s [] [c] ++ slots s [] PS) as -> by (unfold slots; cbn [flat_map]; rewrite app_nil_r; reflexivity).
      rewrite filter_app. assert (filter (fun q => se s q =? x) (slots s [] [c]) = []) as ->.
      { destruct (filter _ _) as [|q l] eqn:E; [reflexivity|]. assert (In q (filter (fun q => se s q =? x) (slots s [] [c]))) as K by (rewrite E; left; reflexivity). apply filter_In in K. destruct K as [K1 K2].
        apply slots_In in K1. destruct K1 as [[K0|[]] (e & K1 & _)]. apply Nat.eqb_eq in K2. pose proof (se_slot K1) as K3. unfold slot in K1. rewrite <- K0, Hc in K1. apply nth_error_In in K1. exfalso. apply Hx. fold cut in K1. congruence. }
      cbn [app]. clear ND. unfold slots. induction PS as [|p PS IH]; [reflexivity|]. cbn [flat_map]. rewrite !filter_app, IH. f_equal.
      rewrite !filter_map. f_equal.
      assert (forall (a b : nat -> bool) l, filter a (filter b l) = filter (fun y => b y && a y) l) as FF.
      { clear. intros a b l. induction l as [|y l IH]; [reflexivity|]. cbn [filter]. destruct (b y); cbn [filter andb]; rewrite IH; reflexivity. }
      rewrite !FF. apply filter_ext. intros j. unfold keepP, se. cbn [fst snd mem]. destruct (Nat.eqb_spec (nth j (edges_at0 s p) 0) x) as [->|]; [|rewrite !Bool.andb_false_r; reflexivity].
      rewrite (proj2 (mem_nIn x cut) Hx). reflexivity.
  Qed.

  (** what a successful call does; the partners keep stale lists of edges and are left out of the new heap *)
  Record copied (D : list nid) s s' c nc ps N : Prop := {
    cp_partners : partners (forget D s) c ps;
    cp_some : ps <> [];
    cp_wf : wf (forget (map fst ps ++ D) s');
    cp_next : N = s_nn s /\ s_nn s' = S (s_nn s) /\ s_ne s <= s_ne s';
    cp_new : exists nd, s_nodes s' N = Some nd /\ n_edges nd = keptE (forget D s) (n_edges nc) (map fst ps) /\
               shape (n_t nd) = map (edim (forget D s)) (n_edges nd) /\
               forall b, fval (n_t nd, n_edges nd) b = esum Nat.eq_dec (edim (forget D s)) (nodup Nat.eq_dec (n_edges nc)) (netprod (net_of (forget D s) (c :: map fst ps))) b;
    cp_copy : s_nodes s' c = Some (Node (n_t nc) (seq (s_ne s' - length (n_edges nc)) (length (n_edges nc))) (n_names nc));
    cp_dangling : forall e, In e (edges_at0 s' c) -> s_ne s <= e /\ exists ed, s_edges s' e = Some ed /\ e_2 ed = None;
    cp_others : forall m, m <> c -> m <> N -> s_nodes s' m = s_nodes s m
  }.

  Lemma contract_copy_inv D c s s' N nc d : wf (forget D s) -> (forall n, In n D -> n < s_nn s) -> s_nodes (forget D s) c = Some nc -> is_delta (n_t nc) d ->
    contract_copy_node letters c s = (s', Some N) -> exists ps, get_partners c s = (s, Some ps) /\ copied D s s' c nc ps N.
  Proof.
    intros W HDn Hc Ht H. unfold contract_copy_node in H. apply bind_inv in H. destruct H as (t & s0 & H1 & H).
    destruct (@compute_inv R letters D c s s0 t nc d W Hc Ht H1) as (-> & ps & Hps & P & Hne & Hsh & Hval). exists ps. split; [exact Hps|].
    set (sl := forget D s) in *. set (PS := map fst ps) in *. set (cut := n_edges nc) in *. set (E := keptE sl cut PS) in *.
    destruct (forget_node Hc) as [Hcs HcD].
    apply bind_inv in H. destruct H as (N0 & s1 & H2 & H). destruct (new_node_inv H2) as (nms & EN & Enn & Ene & Lnm & _ & _ & Hn1 & He1). subst N0.
    set (M := s_nn s) in *.
    assert (rank t = length E) as Erk by (unfold rank; rewrite Hsh, map_length; reflexivity).
    assert (c < M) as LcM by (apply (wf_nn W Hc)).
    assert (forall p, In p PS -> exists nd, s_nodes sl p = Some nd /\ s_nodes s p = Some nd /\ p < M /\ ~ In p D) as HPS.
    { intros p Hp. destruct (pt_node P Hp) as (nd & Hn). exists nd. destruct (forget_node Hn) as [Hn' HD]. repeat split; auto. apply (wf_nn W Hn). }
    assert (forall q e, slot sl q = Some e -> s_edges s1 e = s_edges s e) as Hes.
    { intros q e Hq. rewrite He1. destruct (slot_lt W Hq) as [_ Hlt]. cbn [sl forget s_ne] in Hlt. destruct (Nat.leb_spec (s_ne s) e); [lia | reflexivity]. }
    assert (s_nodes s1 c = Some nc) as Hc1 by (rewrite Hn1; destruct (Nat.eqb_spec c M); [lia | exact Hcs]).
    apply bind_inv in H. destruct H as (ps' & s1' & H3 & H).
    assert (get_partners c s1 = (s1, Some ps)) as K3.
    { apply (@get_partners_ext c s s1 s ps nc Hcs Hc1); [|exact Hps]. intros e He. apply In_nth_error in He. destruct He as (i & Hi). apply (Hes (c, i)). unfold slot. cbn [fst snd]. rewrite Hc. exact Hi. }
    rewrite K3 in H3. injection H3 as <- <-. fold PS in H.
    apply bind_inv in H. destruct H as (k & s2 & H4 & H).
    set (tch := fun e => match s_edges s1 e with Some ed => touches ed c | None => false end).
    assert (~ In M PS) as HMP by (intros K; destruct (HPS M K) as (_ & _ & _ & L & _); lia).
    destruct (@copy_moves_inv R tch c M PS ltac:(lia) (pt_self P) HMP 0 s1 s2 k (Node t (seq (s_ne s) (rank t)) nms)) as (Ek & Enn2 & Ene2 & Hn2 & He2); [rewrite Hn1, Nat.eqb_refl; reflexivity | | exact H4 |].
    { intros e ed He. unfold tch. rewrite He. reflexivity. }
    assert (forall p, In p PS -> edges_at0 s1 p = edges_at0 sl p) as Hea.
    { intros p Hp. destruct (HPS p Hp) as (nd & Hn & Hn' & L & _). unfold edges_at0. rewrite Hn, Hn1, Hn'. destruct (Nat.eqb_spec p M); [lia | reflexivity]. }
    assert (moved tch s1 PS = map (fun q => (se sl q, fst q)) (slots sl cut PS)) as EL.
    { rewrite <- (slots_moved (tch := tch)).
      - apply moved_ext. intros p Hp. destruct (HPS p Hp) as (nd & Hn & Hn' & L & _). rewrite Hn, Hn1, Hn'. destruct (Nat.eqb_spec p M); [lia | reflexivity].
      - intros p e Hp He. apply In_nth_error in He. destruct He as (j & Hj). assert (slot sl (p, j) = Some e) as Sj.
        { unfold slot, edges_at0 in *. cbn [fst snd]. destruct (s_nodes sl p); [exact Hj | destruct j; discriminate]. }
        destruct (wf_slot W Sj) as (ed & He' & _). unfold tch. rewrite (Hes _ _ Sj). cbn [sl forget s_edges] in He'. rewrite He'. exact (wf_touches W Hc Sj He'). }
    set (Sl := slots sl cut PS) in *.
    assert (NoDup Sl) as NSl by (apply slots_NoDup, (pt_nodup P)).
    assert (map fst (moved tch s1 PS) = E) as EE by (rewrite EL, map_map; unfold E; rewrite slots_kept; reflexivity).
    rewrite EE in Hn2. cbn [n_t n_edges n_names] in Hn2.
    rewrite put_all_full in Hn2 by (rewrite seq_length; lia). cbn [firstn app] in Hn2.
    apply bind_inv in H. destruct H as (u & s2' & H5 & H). apply guard_inv in H5. destruct H5 as [_ ->].
    apply bind_inv in H. destruct H as (u' & s3 & H6 & H). injection H as Q1 Q2; subst s3; subst N.
    assert (s_nodes s2 c = Some nc) as Hc2 by (rewrite Hn2; destruct (Nat.eqb_spec c M); [lia | exact Hc1]).
    destruct (fresh_edges_inv Hc2 H6) as (Hn3 & Enn3 & Ene3 & He3).
    set (K := fun q : nid * nat => index_of pdec q Sl).
    set (sg := fun q : nid * nat => if mem (fst q) PS then (M, K q) else q).
    set (sl' := forget (PS ++ D) s') in *.
    assert (s_ne s1 = s_ne s + length E) as Ene1 by lia.
    assert (forall e, e < s_ne s -> s_edges s' e = option_map (appmoves M e 0 (moved tch s1 PS)) (s_edges s e)) as Hedge.
    { intros e Le. rewrite He3, He2, He1. destruct (Nat.leb_spec (s_ne s2) e); [lia|]. destruct (Nat.leb_spec (s_ne s) e); [lia | reflexivity]. }
    assert (s_nodes s' M = Some (Node t E nms)) as HMs by (rewrite Hn3, Hn2, Nat.eqb_refl; destruct (Nat.eqb_spec M c); [lia | reflexivity]).
    assert (s_nodes s' c = Some (Node (n_t nc) (seq (s_ne s2) (length cut)) (n_names nc))) as Hcs' by (rewrite Hn3, Nat.eqb_refl; reflexivity).
    assert (forall m, m <> c -> m <> M -> s_nodes s' m = s_nodes s m) as Hoth.
    { intros m Hm1 Hm2. rewrite Hn3, Hn2, Hn1. destruct (Nat.eqb_spec m c); [congruence|]. destruct (Nat.eqb_spec m M); [congruence | reflexivity]. }
    assert (~ In M D) as HMD by (intros Q; apply HDn in Q; unfold M in Q; lia).
    assert (forall m, In m PS \/ In m D -> s_nodes sl' m = None) as Hdead.
    { intros m Hm. unfold sl', forget. cbn [s_nodes]. rewrite (proj2 (mem_In m (PS ++ D))) by (apply in_or_app; exact Hm). reflexivity. }
    assert (forall m, ~ In m PS -> ~ In m D -> s_nodes sl' m = s_nodes s' m) as Hlive.
    { intros m Hm1 Hm2. apply forget_keep. intros Q. apply in_app_or in Q. tauto. }
    assert (length E = length Sl) as LE by (unfold E; rewrite slots_kept, map_length; reflexivity).
    assert (forall q, In q Sl -> nth_error E (K q) = Some (se sl q)) as HK.
    { intros q Hq. unfold E. rewrite slots_kept. fold Sl. rewrite nth_error_map. rewrite (nth_error_nth' Sl q) by (apply index_of_lt, Hq). cbn [option_map]. unfold K. rewrite nth_index_of by exact Hq. reflexivity. }
    assert (forall q e, In q Sl -> slot sl q = Some e -> slot sl' (M, K q) = Some e /\ dimat sl' (M, K q) = dimat sl q) as HMslot.
    { intros q e Hq Sq. pose proof (HK q Hq) as Q. rewrite (se_slot Sq) in Q. unfold slot, dimat. cbn [fst snd]. rewrite (Hlive M HMP HMD), HMs. cbn [n_edges n_t]. split; [exact Q|].
      rewrite Hsh, nth_error_map, Q. cbn [option_map]. symmetry. exact (edim_dimat W Sq). }
    assert (forall q e, slot sl q = Some e -> ~ In (fst q) D /\ fst q < M) as Hsl.
    { intros q e Sq. split; [apply (forget_slot Sq) | apply (slot_lt W Sq)]. }
    assert (forall q e, slot sl q = Some e -> ~ In e cut -> fst q <> c) as Hnc.
    { intros [m j] e Sq Hx Em. cbn [fst] in Em. subst m. apply Hx. unfold slot in Sq. cbn [fst snd] in Sq. rewrite Hc in Sq. apply nth_error_In in Sq. exact Sq. }
    assert (wf sl') as W'.
    { apply (@wfx_rename R (fun _ => False) sl sl'); [| | | |exact W].
      - intros n nd Hn. destruct (in_dec Nat.eq_dec n PS) as [I1|I1]; [rewrite Hdead in Hn by (left; exact I1); discriminate|].
        destruct (in_dec Nat.eq_dec n D) as [I2|I2]; [rewrite Hdead in Hn by (right; exact I2); discriminate|]. rewrite Hlive in Hn by assumption.
        destruct (Nat.eq_dec n c) as [->|Nc]; [rewrite Hcs' in Hn; injection Hn as <-; cbn [n_edges n_t]; rewrite seq_length; apply (wf_rank W Hc)|].
        destruct (Nat.eq_dec n M) as [->|NM]; [rewrite HMs in Hn; injection Hn as <-; cbn [n_edges n_t]; lia|].
        rewrite Hoth in Hn by assumption. rewrite <- (forget_keep (D := D)) in Hn by assumption. apply (wf_rank W Hn).
      - intros n nd Hn. apply forget_node in Hn. destruct Hn as [Hn Hnd]. change (s_nn sl') with (s_nn s').
        destruct (Nat.eq_dec n c) as [->|Nc]; [lia|]. destruct (Nat.eq_dec n M) as [->|NM]; [lia|].
        rewrite Hoth in Hn by assumption. assert (s_nodes sl n = Some nd) as Hn' by (rewrite <- Hn; apply forget_keep; intros Q; apply Hnd, in_or_app; right; exact Q).
        pose proof (wf_nn W Hn') as L. cbn in L. fold M in L. lia.
      - intros e ed He. change (s_ne sl') with (s_ne s'). change (s_edges sl') with (s_edges s') in He. rewrite He3, He2, He1 in He.
        destruct (Nat.leb_spec (s_ne s2) e); cbn [andb] in He.
        + destruct (Nat.ltb_spec e (s_ne s2 + length (n_edges nc))); [lia|]. destruct (Nat.leb_spec (s_ne s) e); cbn [andb] in He; [|lia]. destruct (Nat.ltb_spec e (s_ne s + rank t)); cbn [option_map] in He; [lia|].
          destruct (s_edges s e) as [ed0|] eqn:Q; [|discriminate]. pose proof (wf_ne W Q) as L. cbn in L. lia.
        + lia.
      - intros p e Sp.
        assert (forall q0, slot sl q0 = Some e -> ~ In e cut -> p = sg q0 -> exists sg p0 ed ed', slot sl p0 = Some e /\ p = sg p0 /\ s_edges sl e = Some ed /\ s_edges sl' e = Some ed' /\
            (e_dis ed = false -> e_dis ed' = false) /\ Permutation (ends ed') (map sg (ends ed)) /\
            (forall q q', In q (ends ed) -> In q' (ends ed) -> sg q = sg q' -> q = q') /\
            (~ False -> forall q, In q (ends ed) -> slot sl' (sg q) = Some e /\ dimat sl' (sg q) = dimat sl q)) as Main.
        { intros q0 S0 Hx Ep. destruct (wf_slot W S0) as (ed & He & Hd & _ & NDe & _).
          assert (forall q, In q (ends ed) -> slot sl q = Some e) as Hends by (intros q Hq; exact (ends_live W S0 He Hq)).
          assert (forall q, In q (ends ed) -> In (fst q) PS -> In q Sl) as HinS.
          { intros q Hq Hp. apply slots_In. split; [exact Hp|]. exists e. split; [apply Hends, Hq | exact Hx]. }
          exists sg, q0, ed, (appmoves M e 0 (moved tch s1 PS) ed). split; [exact S0|]. split; [exact Ep|]. split; [exact He|]. split.
          { change (s_edges sl') with (s_edges s'). change (s_edges sl) with (s_edges s) in He. rewrite Hedge, He; [reflexivity|]. apply (slot_lt W S0). }
          split; [apply appmoves_dis|].
          assert (Permutation (filter (fun q => se sl q =? e) Sl) (filter (fun q => mem (fst q) PS) (ends ed))) as Pm.
          { apply NoDup_Permutation; [apply NoDup_filter, NSl | apply NoDup_filter, NDe|]. intros q. rewrite !filter_In, Nat.eqb_eq, mem_In. split.
            - intros [Hq Eq]. apply slots_In in Hq. destruct Hq as [Hp (e' & Sq & _)]. assert (e' = e) as -> by (apply se_slot in Sq; congruence). split; [exact (live_in_ends W Sq He) | exact Hp].
            - intros [Hq Hp]. split; [apply HinS; assumption | apply se_slot, Hends, Hq]. }
          split.
          { rewrite EL. eapply perm_trans; [apply (appmoves_ends HMP)|].
            - intros f p' Hf. apply in_map_iff in Hf. destruct Hf as (q & Eq & Hq). injection Eq as _ <-. apply slots_In in Hq. apply Hq.
            - rewrite filter_map, map_map. cbn [fst snd]. apply Permutation_map. exact Pm.
            - rewrite map_length, combine_map_l, (combine_index pdec NSl), map_map, filter_map, map_map. cbn [fst snd].
              eapply perm_trans; [|apply Permutation_map, (filter_both (fun q => mem (fst q) PS))]. rewrite map_app. apply Permutation_app.
              + apply Permutation_refl'. transitivity (map (fun q => q) (filter (fun x : nid * nat => negb (mem (fst x) PS)) (ends ed))); [symmetry; apply map_id|].
                apply map_ext_in. intros q Hq. apply filter_In in Hq. destruct Hq as [_ Hq]. apply Bool.negb_true_iff in Hq. unfold sg. rewrite Hq. reflexivity.
              + eapply perm_trans; [apply Permutation_map, Pm|]. apply Permutation_refl'. apply map_ext_in. intros q Hq. apply filter_In in Hq. destruct Hq as [_ Hq]. unfold sg. rewrite Hq. reflexivity. }
          split.
          { intros q q' Hq Hq' Eq. unfold sg in Eq. destruct (mem (fst q) PS) eqn:M1, (mem (fst q') PS) eqn:M2.
            - injection Eq as Eq. apply mem_In in M1, M2. pose proof (@nth_index_of _ pdec q Sl q (HinS q Hq M1)) as Q1. pose proof (@nth_index_of _ pdec q' Sl q (HinS q' Hq' M2)) as Q2. unfold K in Eq. congruence.
            - exfalso. destruct (Hsl q' e (Hends q' Hq')) as [_ L]. rewrite <- Eq in L. cbn [fst] in L. lia.
            - exfalso. destruct (Hsl q e (Hends q Hq)) as [_ L]. rewrite Eq in L. cbn [fst] in L. lia.
            - exact Eq. }
          intros _ q Hq. unfold sg. destruct (mem (fst q) PS) eqn:M1.
          - apply mem_In in M1. apply HMslot; [apply HinS; assumption | apply Hends, Hq].
          - apply mem_nIn in M1. pose proof (Hends q Hq) as Sq. destruct (Hsl q e Sq) as [L1 L2]. pose proof (Hnc q e Sq Hx) as L3.
            assert (s_nodes sl' (fst q) = s_nodes sl (fst q)) as En.
            { rewrite Hlive by assumption. rewrite Hoth; [symmetry; apply forget_keep, L1 | exact L3 | lia]. }
            unfold slot, dimat. rewrite En. split; [exact Sq | reflexivity]. }
        destruct p as [m j]. destruct (in_dec Nat.eq_dec m PS) as [I1|I1]; [unfold slot in Sp; cbn [fst snd] in Sp; rewrite Hdead in Sp by (left; exact I1); discriminate|].
        destruct (in_dec Nat.eq_dec m D) as [I2|I2]; [unfold slot in Sp; cbn [fst snd] in Sp; rewrite Hdead in Sp by (right; exact I2); discriminate|].
        unfold slot in Sp. cbn [fst snd] in Sp. rewrite Hlive in Sp by assumption.
        destruct (Nat.eq_dec m c) as [->|Nc].
        { left. rewrite Hcs' in Sp. cbn [n_edges] in Sp. assert (j < length cut) as Lj by (rewrite <- (seq_length (length cut) (s_ne s2)); apply nth_error_Some; congruence).
          apply (nth_error_nth _ _ 0) in Sp. rewrite seq_nth in Sp by exact Lj. subst e. change (s_edges sl') with (s_edges s'). rewrite He3. cbn [fst snd].
          destruct (Nat.leb_spec (s_ne s2) (s_ne s2 + j)); [|lia]. destruct (Nat.ltb_spec (s_ne s2 + j) (s_ne s2 + length (n_edges nc))); [|unfold cut in Lj; lia]. cbn [andb]. replace (s_ne s2 + j - s_ne s2) with j by lia. reflexivity. }
        right. destruct (Nat.eq_dec m M) as [->|NM].
        + rewrite HMs in Sp. cbn [n_edges] in Sp. unfold E in Sp. rewrite slots_kept in Sp. fold Sl in Sp. rewrite nth_error_map in Sp.
          destruct (nth_error Sl j) as [q|] eqn:Hq; [|discriminate]. injection Sp as Sp. assert (In q Sl) as Iq by (apply nth_error_In in Hq; exact Hq).
          pose proof (proj1 (slots_In sl cut PS q) Iq) as (Hp & e' & Sq & Hx). assert (e' = e) as -> by (apply se_slot in Sq; congruence).
          apply (Main q); [exact Sq | exact Hx|]. unfold sg. rewrite (proj2 (mem_In _ _) Hp). f_equal. unfold K. symmetry.
          rewrite <- (nth_error_nth Sl j q Hq). apply index_of_nth; [exact NSl | apply nth_error_Some; congruence].
        + rewrite Hoth in Sp by assumption.
          assert (slot sl (m, j) = Some e) as Sq by (unfold slot; cbn [fst snd]; unfold sl; rewrite (forget_keep (D := D)) by exact I2; exact Sp).
          apply (Main (m, j)); [exact Sq| |unfold sg; cbn [fst]; rewrite (proj2 (mem_nIn _ _) I1); reflexivity].
          intros Hx. apply In_nth_error in Hx. destruct Hx as (i & Hi). assert (on sl c e) as Hon by (exists i; unfold slot; cbn [fst snd]; rewrite Hc; exact Hi).
          destruct (pt_all P Hon Sq) as [Q|Q]; cbn [fst] in Q; contradiction. }
    constructor.
    - exact P.
    - exact Hne.
    - exact W'.
    - split; [reflexivity|]. split; [lia | lia].
    - exists (Node t E nms). split; [exact HMs|]. split; [reflexivity|]. split; [exact Hsh|]. exact Hval.
    - rewrite Hcs'. fold cut. change (n_edges nc) with cut in Ene3. replace (s_ne s' - length cut) with (s_ne s2) by lia. reflexivity.
    - intros e. unfold edges_at0. rewrite Hcs'. cbn [n_edges]. intros He. apply in_seq in He. split; [lia|]. rewrite He3. fold cut.
      destruct (Nat.leb_spec (s_ne s2) e); [|lia]. destruct (Nat.ltb_spec e (s_ne s2 + length cut)); [|lia]. cbn [andb]. eexists. split; reflexivity.
    - exact Hoth.
  Qed.

  (** the value of every network containing the copy node and its partners *)
  Lemma copied_value D c s s' N nc ps S a : wf (forget D s) -> s_nodes (forget D s) c = Some nc -> copied D s s' c nc ps N ->
    NoDup (c :: map fst ps ++ S) -> ~ In N S -> (forall n, In n D -> n < s_nn s) ->
    netval (forget D s) (c :: map fst ps ++ S) a = netval (forget (map fst ps ++ D) s') (N :: S) a.
  Proof.
    intros W Hc K ND HN HDn. set (sl := forget D s) in *. set (PS := map fst ps) in *. set (sl' := forget (PS ++ D) s').
    destruct (cp_new K) as (nd & Hn & En & Hsh & Hval). pose proof (cp_partners K) as P. fold sl PS in P, En, Hsh, Hval.
    destruct (cp_next K) as (EN & _ & _).
    assert (~ In N PS) as HNP. { intros Q. destruct (pt_node P Q) as (x & Hx). pose proof (wf_nn W Hx) as L. cbn in L. lia. }
    assert (~ In N D) as HND by (intros Q; apply HDn in Q; lia).
    inversion ND as [|? ? ND1 ND2]; subst x l. apply NoDup_app_iff in ND2. destruct ND2 as (_ & NDS & Hdis).
    assert (forall m, In m S -> s_nodes sl' m = s_nodes sl m) as HS.
    { intros m Hm. assert (~ In m PS) as I1 by (intros Q; exact (Hdis m Q Hm)). assert (m <> c) as I2 by (intros ->; apply ND1, in_or_app; right; exact Hm).
      destruct (in_dec Nat.eq_dec m D) as [I3|I3].
      - unfold sl', sl, forget. cbn [s_nodes]. rewrite (proj2 (mem_In m (PS ++ D))) by (apply in_or_app; right; exact I3). rewrite (proj2 (mem_In m D)) by exact I3. reflexivity.
      - unfold sl', sl. rewrite !forget_keep; [|exact I3 | intros Q; apply in_app_or in Q; tauto]. apply (cp_others K); [exact I2 | intros ->; contradiction]. }
    assert (fac sl' N = (n_t nd, n_edges nd)) as FN. { apply fac_node. unfold sl'. rewrite forget_keep; [exact Hn|]. intros Q. apply in_app_or in Q. tauto. }
    rewrite (@netval_dim R sl' (N :: S) (edim sl) a (cp_wf K)).
    2:{ intros m [<-|Hm]; [rewrite FN; exact Hsh|]. assert (fac sl' m = fac sl m) as -> by (unfold fac; rewrite (HS m Hm); reflexivity). apply fac_fits, W. }
    unfold netval. cbn [net_of map]. rewrite FN. fold (net_of sl' S). rewrite (net_of_ext (s := sl) (s' := sl') (S := S) HS).
    assert (forall e, In e (nodup Nat.eq_dec (n_edges nc)) -> on sl c e) as Hon.
    { intros e He. apply nodup_In, In_nth_error in He. destruct He as (i & Hi). exists i. unfold slot. cbn [fst snd]. rewrite Hc. exact Hi. }
    apply (@value_contract nat Nat.eq_dec R (edim sl) _ (net_of sl (c :: PS)) (net_of sl S) (n_t nd, n_edges nd) (nodup Nat.eq_dec (n_edges nc)) a).
    - unfold net_of. rewrite <- map_app. reflexivity.
    - cbn [snd]. rewrite En. apply (copy_labels W Hc P).
    - apply NoDup_nodup.
    - intros x Hx. cbn [snd]. rewrite En. unfold keptE. intros Q. apply in_flat_map in Q. destruct Q as (p & _ & Q). apply filter_In in Q. destruct Q as [_ Q]. apply Bool.negb_true_iff, mem_nIn in Q. apply Q. apply nodup_In in Hx. exact Hx.
    - intros x Hx Q. apply (In_net_labels S x W) in Q. destruct Q as (m & k & Hm & Sm). destruct (pt_all P (Hon x Hx) Sm) as [Q|Q]; cbn [fst] in Q.
      + subst m. apply ND1, in_or_app. right. exact Hm.
      + exact (Hdis m Q Hm).
    - intros b _ _. apply Hval.
  Qed.
End Step.
