(** * CopyTensorTotal: contract_copy_node succeeds on every attached copy node *)
From Coq Require Import Permutation.
From Verif Require Import Prelude Algebra Tensor TensorFacts Einsum EinsumFacts NetworkFacts Graph GraphBase GraphContract GraphOps GraphValue GraphOuter GraphConnect GraphQuery GraphQueryFacts GraphCompound GraphCopyFacts GraphTotal CopyTensor CopyTensorSpec CopyTensorSum CopyTensorNet CopyTensorMove CopyTensorStep.
Set Implicit Arguments.
Unset Strict Implicit.
Local Open Scope csr_scope.

Section Total.
  Context {R : csr}.
  Variable letters : nat.
  Notation st := (@st R).
  Implicit Types (s : st).

  Lemma partners_from_ok c es : forall d s,
    (forall e, In e es -> exists ed q i, s_edges s e = Some ed /\ e_dis ed = false /\ e_2 ed = Some q /\ In (c, i) (ends ed)) ->
    exists ps, partners_from c es d s = (s, Some ps).
  Proof.
    induction es as [|e es IH]; intros d s H; [eexists; reflexivity|]. cbn [partners_from].
    destruct (H e (or_introl eq_refl)) as (ed & [n2 a2] & i & He & Hd & E2 & Hi). unfold bind, get_edge. rewrite He, Hd, E2.
    assert (forall e, In e es -> exists ed q i, s_edges s e = Some ed /\ e_dis ed = false /\ e_2 ed = Some q /\ In (c, i) (ends ed)) as H' by (intros; apply H; right; assumption).
    destruct ((e_n1 ed =? c) && (n2 =? c)) eqn:B; [apply IH, H'|]. destruct (Nat.eqb_spec (e_n1 ed) c) as [E|E]; [apply IH, H'|].
    unfold ends in Hi. rewrite E2 in Hi. destruct Hi as [Q|[Q|[]]]; [congruence|]. injection Q as -> ->. rewrite Nat.eqb_refl. unfold guard, ret. apply IH, H'.
  Qed.

  Lemma input_terms_ok s (cut : list eid) (d : nat) (g : nat -> nat) : forall ps next,
    (forall p l, In (p, l) ps -> exists nd, s_nodes s p = Some nd /\ length (n_edges nd) = rank (n_t nd) /\
       forall j, j < length (n_edges nd) -> mem j l = mem (nth j (n_edges nd) 0) cut /\
         (mem (nth j (n_edges nd) 0) cut = true -> nth j (shape (n_t nd)) 0 = g 0)) ->
    (forall k p l nd j, In (p, l) ps -> s_nodes s p = Some nd -> nth_error (n_edges nd) j = Some (nth k (keptE s cut (map fst ps)) 0) -> k < length (keptE s cut (map fst ps)) ->
       nth j (shape (n_t nd)) 0 = g (next + k)) ->
    exists net next', input_terms ps next s = (s, Some (net, next')) /\ length net = length ps /\ forall f, In f net -> shape (fst f) = map g (snd f).
  Proof.
    induction ps as [|[p l] ps IH]; intros next HP HG; [exists [], next; repeat split; intros f []|].
    destruct (HP p l (or_introl eq_refl)) as (nd & Hn & HR & HM).
    cbn [input_terms]. unfold bind at 1, get_node. rewrite Hn. rewrite input_term_0. cbn [fst snd].
    assert (filter (free_at l) (seq 0 (rank (n_t nd))) = filter (keepP cut (n_edges nd)) (seq 0 (length (n_edges nd)))) as EF.
    { rewrite <- HR. apply filter_ext_seq. intros j Hj. unfold free_at, keepP. rewrite (proj1 (HM j Hj)). reflexivity. }
    assert (forall j, j < length (n_edges nd) -> kpos (free_at l) j = kpos (keepP cut (n_edges nd)) j) as EK.
    { intros j Hj. unfold kpos. f_equal. apply filter_ext_seq. intros i Hi. unfold free_at, keepP. rewrite (proj1 (HM i ltac:(lia))). reflexivity. }
    rewrite EF, <- kept_length. set (K := kept_of cut (n_edges nd)) in *.
    assert (keptE s cut (map fst ((p, l) :: ps)) = K ++ keptE s cut (map fst ps)) as EE by (unfold K, keptE; cbn [map fst flat_map]; unfold edges_at0 at 1; rewrite Hn; reflexivity).
    rewrite EE in HG.
    destruct (IH (next + length K)) as (net & next' & E1 & E2 & E3).
    { intros q k Hq. apply HP. right. exact Hq. }
    { intros k q ql nd' j Hq Hn' Hj Hk. rewrite <- Nat.add_assoc. apply (HG (length K + k) q ql nd' j); [right; exact Hq | exact Hn' | | rewrite app_length; lia].
      rewrite app_nth2 by lia. replace (length K + k - length K) with k by lia. exact Hj. }
    unfold bind. rewrite E1. cbn [fst snd]. eexists. exists next'. split; [reflexivity|]. split; [cbn [length]; rewrite E2; reflexivity|].
    intros f [<-|Hf]; [|apply E3, Hf]. cbn [fst snd]. rewrite map_map.
    apply (@nth_ext _ _ _ 0 (g 0)); [rewrite map_length, seq_length; reflexivity|].
    intros j Hj. fold (rank (n_t nd)) in Hj.
    rewrite (nth_indep _ (g 0) (g (if mem 0 l then 0 else next + kpos (free_at l) 0))) by (rewrite map_length, seq_length; exact Hj).
    rewrite (@map_nth _ _ (fun x => g (if mem x l then 0 else next + kpos (free_at l) x))), seq_nth by exact Hj. cbn [Nat.add].
    rewrite <- HR in Hj. destruct (HM j Hj) as [M1 M2]. rewrite M1. destruct (mem (nth j (n_edges nd) 0) cut) eqn:Mj; [apply M2; reflexivity|].
    rewrite EK by exact Hj. assert (keepP cut (n_edges nd) j = true) as KP by (unfold keepP; rewrite Mj; reflexivity).
    pose proof (kpos_lt KP Hj) as Lj. rewrite <- kept_length in Lj. fold K in Lj. apply (HG _ p l nd j); [left; reflexivity | exact Hn | | rewrite app_length; lia].
    rewrite app_nth1 by exact Lj. rewrite <- (kept_nth KP Hj). apply nth_error_nth'. exact Lj.
  Qed.

  Lemma label_dim_ok (net : list (factor nat R)) (g : nat -> nat) : (forall f, In f net -> shape (fst f) = map g (snd f)) ->
    forall x, In x (net_labels net) -> label_dim net x = g x.
  Proof.
    intros H x Hx. unfold label_dim.
    assert (forall y, In y (flat_map (fun f : factor nat R => combine (snd f) (shape (fst f))) net) -> snd y = g (fst y)) as K.
    { intros [a b] Hy. apply in_flat_map in Hy. destruct Hy as (f & Hf & Hy). rewrite (H f Hf) in Hy. cbn [fst snd]. clear -Hy. induction (snd f) as [|z l IH]; [destruct Hy|].
      cbn in Hy. destruct Hy as [E|Hy]; [congruence | apply IH, Hy]. }
    destruct (find _ _) as [y|] eqn:F.
    - apply find_some in F. destruct F as [F1 F2]. apply Nat.eqb_eq in F2. rewrite (K y F1), F2. reflexivity.
    - exfalso. unfold net_labels in Hx. apply in_flat_map in Hx. destruct Hx as (f & Hf & Hx). pose proof (find_none _ _ F (x, g x)) as Q. cbn [fst] in Q. rewrite Nat.eqb_refl in Q. discriminate Q.
      apply in_flat_map. exists f. split; [exact Hf|]. rewrite (H f Hf). clear -Hx. induction (snd f) as [|z l IH]; [destruct Hx|]. cbn. destruct Hx as [->|Hx]; [left; reflexivity | right; apply IH, Hx].
  Qed.
  Lemma np_einsum_ok (net : list (factor nat R)) (g : nat -> nat) out : net <> [] -> (forall f, In f net -> shape (fst f) = map g (snd f)) ->
    (forall x, In x (net_labels net) -> x < letters) -> NoDup out -> (forall x, In x out -> In x (net_labels net)) -> exists t, np_einsum letters net out = Some t.
  Proof.
    intros H1 H2 H3 H4 H5. unfold np_einsum. cbv zeta.
    assert (negb (length net =? 0) = true) as -> by (destruct net; [congruence | reflexivity]).
    assert (forallb (fun l => l <? letters) (net_labels net) = true) as -> by (apply forallb_forall; intros x Hx; apply Nat.ltb_lt, H3, Hx).
    match goal with |- context [forallb ?F net] => assert (forallb F net = true) as -> end.
    { apply forallb_forall. intros f Hf. destruct (list_eq_dec _ _ _) as [E|E]; [reflexivity|]. exfalso. apply E. rewrite (H2 f Hf). apply map_ext_in. intros x Hx. symmetry. apply (label_dim_ok H2).
      unfold net_labels. apply in_flat_map. exists f. auto. }
    rewrite (proj2 (nodupb_spec out) H4). assert (forallb (fun l => mem l (net_labels net)) out = true) as -> by (apply forallb_forall; intros x Hx; apply mem_In, H5, Hx).
    cbn [andb]. eexists. reflexivity.
  Qed.

  (** ** the moves *)
  Definition onlist (e : eid) (L : list (eid * nid)) : list nid := map snd (filter (fun x => fst x =? e) L).
  Record ready (tch : eid -> bool) (c N : nid) (A : list eid) s k (L : list (eid * nid)) : Prop := {
    rd_live : forall e, In e A -> exists ed, s_edges s e = Some ed /\ e_dis ed = false;
    rd_in : forall e p, In (e, p) L -> In e A;
    rd_ends : forall e ed, s_edges s e = Some ed -> In e A -> exists rest, Permutation (map fst (ends ed)) (onlist e L ++ rest);
    rd_node : exists dN, s_nodes s N = Some dN /\ k + length L <= rank (n_t dN) /\ length (n_edges dN) = rank (n_t dN) /\
                forall j, k <= j < k + length L -> exists old od, nth_error (n_edges dN) j = Some old /\ s_edges s old = Some od /\ e_2 od = None /\ ~ In old A;
    rd_touch : forall e ed, s_edges s e = Some ed -> touches ed c = tch e
  }.
  Lemma copy_move_ok (tch : eid -> bool) c p N A L' : N <> c -> p <> c -> N <> p -> forall es k s, (forall e, In e es -> In e A) ->
    ready tch c N A s k (map (fun e => (e, p)) (filter (fun e => negb (tch e)) es) ++ L') ->
    exists s' k', copy_move c p N k es s = (s', Some k') /\ ready tch c N A s' k' L'.
  Proof.
    intros Nc pc Np. induction es as [|e es IH]; intros k s HA RD; [exists s, k; split; [reflexivity | exact RD]|].
    cbn [copy_move]. destruct (rd_live RD (HA e (or_introl eq_refl))) as (ed & He & Hd). unfold bind at 1, get_edge. rewrite He, Hd.
    assert (forall e, In e es -> In e A) as HA' by (intros; apply HA; right; assumption).
    rewrite (rd_touch RD He). cbn [filter] in RD. destruct (tch e) eqn:Et; cbn [negb] in RD; [apply IH; assumption|].
    cbn [map app] in RD. set (L := map (fun e => (e, p)) (filter (fun e => negb (tch e)) es) ++ L') in *.
    destruct (rd_ends RD He (HA e (or_introl eq_refl))) as (rest & Pm). unfold onlist in Pm. cbn [filter fst] in Pm. rewrite Nat.eqb_refl in Pm. cbn [map snd app] in Pm.
    assert (In p (map fst (ends ed))) as Ip by (eapply Permutation_in; [apply Permutation_sym, Pm | left; reflexivity]).
    set (old := if e_n1 ed =? p then e_a1 ed else match e_2 ed with Some (_, a2) => a2 | None => 0 end).
    assert (In (p, old) (ends ed) /\ (e_n1 ed <> p -> exists a2, e_2 ed = Some (p, a2))) as [Ho Ho2].
    { unfold old, ends in *. destruct (Nat.eqb_spec (e_n1 ed) p) as [E|E]; [rewrite E; split; [left; reflexivity | congruence]|]. cbn [map fst In] in Ip. destruct Ip as [Q|Ip]; [congruence|].
      destruct (e_2 ed) as [[n2 a2]|]; [|destruct Ip]. destruct Ip as [Q|[]]. cbn [fst] in Q. subst n2. split; [right; left; reflexivity | intros _; eauto]. }
    assert ((if e_n1 ed =? p then ret (e_a1 ed) else match e_2 ed with Some (_, a2) => ret a2 | None => fail end) s = (s, Some old)) as E1.
    { unfold old. destruct (Nat.eqb_spec (e_n1 ed) p) as [E|E]; [reflexivity|]. destruct (Ho2 E) as (a2 & ->). reflexivity. }
    unfold bind at 1. rewrite E1. unfold bind at 1. rewrite (update_axis_ok (N, k) He Hd Ho).
    assert (app1 ed (p, old) (N, k) = appn ed p (N, k)) as Eap.
    { unfold app1, appn. destruct (slot_eqb_spec (e_n1 ed, e_a1 ed) (p, old)) as [Q|Q].
      - injection Q as Q _. rewrite Q, Nat.eqb_refl. reflexivity.
      - destruct (Nat.eqb_spec (e_n1 ed) p) as [E|E]; [exfalso; apply Q; clear -E; subst old; destruct (Nat.eqb_spec (e_n1 ed) p); congruence|].
        destruct (Ho2 E) as (a2 & E2). rewrite E2. unfold old. destruct (Nat.eqb_spec (e_n1 ed) p); [congruence|]. rewrite E2. destruct (slot_eqb_spec (p, a2) (p, a2)); [reflexivity | congruence]. }
    rewrite Eap. destruct (rd_node RD) as (dN & HN & HL & HR & Hold). cbn [length] in HL, Hold.
    destruct (Hold k ltac:(lia)) as (o & od & Ho1 & Hod & Hdang & HoA).
    set (s1 := with_edge s e (appn ed p (N, k))).
    assert (o <> e) as Noe by (intros ->; apply HoA, HA; left; reflexivity).
    assert (s_edges s1 o = Some od) as Ho3 by (unfold s1, with_edge; cbn [s_edges]; unfold upd; destruct (Nat.eq_dec o e); [congruence | exact Hod]).
    unfold bind at 1. rewrite (@add_edge_any R s1 N dN e k o od false HN ltac:(lia) Ho1 Ho3 (or_intror Hdang)).
    apply IH; [exact HA'|]. fold L. constructor.
    - intros f Hf. cbn [with_node s1 with_edge s_edges]. unfold upd. destruct (Nat.eq_dec f e) as [->|]; [|apply (rd_live RD Hf)]. eexists. split; [reflexivity|]. unfold appn. destruct (_ =? p); reflexivity.
    - intros f q Hf. apply (rd_in RD (e := f) (p := q)). right. exact Hf.
    - intros f fd. cbn [with_node s1 with_edge s_edges]. unfold upd. destruct (Nat.eq_dec f e) as [->|Hfe].
      + intros Q _. injection Q as <-. exists (N :: rest).
        assert (Permutation (map fst (ends (appn ed p (N, k)))) (N :: map snd (filter (fun x => fst x =? e) L) ++ rest)) as K; [|eapply perm_trans; [exact K | apply Permutation_middle]].
        unfold appn. destruct (Nat.eqb_spec (e_n1 ed) p) as [E|E].
        * unfold ends in Pm |- *. cbn [e_n1 e_a1 e_2 map fst snd] in *. rewrite E in Pm. apply Permutation_cons_inv in Pm. constructor. exact Pm.
        * destruct (Ho2 E) as (a2 & E2). unfold ends in Pm |- *. rewrite E2 in Pm. cbn [e_n1 e_a1 e_2 map fst snd] in *. eapply perm_trans; [apply perm_swap|]. constructor.
          eapply Permutation_cons_inv with (a := p). eapply perm_trans; [apply perm_swap | exact Pm].
      + intros Hf HfA. destruct (rd_ends RD Hf HfA) as (r' & Pm'). exists r'. unfold onlist in Pm'. cbn [filter fst] in Pm'. destruct (Nat.eqb_spec e f); [congruence|]. exact Pm'.
    - eexists. cbn [with_node s_nodes]. split; [apply upd_same|]. cbn [n_t n_edges]. split; [lia|]. split; [rewrite replace_nth_length; exact HR|].
      intros j Hj. destruct (Hold j ltac:(lia)) as (o' & od' & Q1 & Q2 & Q3 & Q4). exists o', od'. split; [rewrite nth_error_replace_nth; destruct (Nat.eqb_spec j k); [lia | exact Q1]|].
      split; [|auto]. cbn [with_node s1 with_edge s_edges]. unfold upd. destruct (Nat.eq_dec o' e) as [->|]; [exfalso; apply Q4, HA; left; reflexivity | exact Q2].
    - intros f fd. cbn [with_node s1 with_edge s_edges]. unfold upd. destruct (Nat.eq_dec f e) as [->|Hfe]; [|apply (rd_touch RD)]. intros Q. injection Q as <-. rewrite Et.
      pose proof (rd_touch RD He) as Te. rewrite Et in Te. unfold touches in Te |- *. apply Bool.orb_false_elim in Te. destruct Te as [T1 T2]. unfold appn.
      destruct (Nat.eqb_spec (e_n1 ed) p); cbn [e_n1 e_2 fst]; destruct (Nat.eqb_spec N c); try congruence; rewrite ?T1, ?T2; reflexivity.
  Qed.
  Lemma copy_moves_ok (tch : eid -> bool) c N A PS : N <> c -> ~ In c PS -> ~ In N PS -> forall k s,
    (forall p, In p PS -> is_node s p) -> (forall p e, In p PS -> In e (edges_at0 s p) -> In e A) -> ready tch c N A s k (moved tch s PS) ->
    exists s' k', copy_moves c N k PS s = (s', Some k').
  Proof.
    intros Nc. induction PS as [|p PS IH]; intros HcP HNP k s HN HA RD; [exists s, k; reflexivity|]. cbn in HcP, HNP. cbn [copy_moves].
    destruct (s_nodes s p) as [nd|] eqn:Hp; [|exfalso; apply (HN p (or_introl eq_refl)); exact Hp]. unfold bind at 1, get_node. rewrite Hp.
    assert (edges_at0 s p = n_edges nd) as Ea by (unfold edges_at0; rewrite Hp; reflexivity).
    unfold moved in RD. cbn [flat_map] in RD. fold (moved tch s PS) in RD. rewrite Ea in RD.
    destruct (@copy_move_ok tch c p N A (moved tch s PS) Nc ltac:(tauto) ltac:(intros ->; tauto) (n_edges nd) k s) as (s1 & k1 & E1 & RD1); [|exact RD|].
    { intros e He. apply (HA p); [left; reflexivity | rewrite Ea; exact He]. }
    unfold bind. rewrite E1. destruct (rd_node RD) as (dN & HdN & _).
    assert (p <> c) as pc by (intros ->; tauto). assert (N <> p) as Np by (intros ->; tauto).
    destruct (copy_move_inv Nc pc Np HdN (rd_touch RD) E1) as (_ & _ & _ & Hn1 & _).
    assert (forall q, In q PS -> s_nodes s1 q = s_nodes s q) as Hq. { intros q Hq. rewrite Hn1. destruct (Nat.eqb_spec q N) as [->|]; [tauto | reflexivity]. }
    apply IH; [tauto | tauto | | |].
    - intros q Hin. unfold is_node. rewrite Hq by exact Hin. apply HN. right. exact Hin.
    - intros q e Hin He. apply (HA q e); [right; exact Hin|]. unfold edges_at0 in *. rewrite Hq in He by exact Hin. exact He.
    - rewrite (@moved_ext R tch s s1 PS) by exact Hq. exact RD1.
  Qed.

  Theorem contract_copy_total D c s nc d : wf (forget D s) -> (forall n, In n D -> n < s_nn s) -> s_nodes (forget D s) c = Some nc -> is_delta (n_t nc) d ->
    length (n_edges nc) <= length (n_names nc) ->
    (forall e ed, In e (n_edges nc) -> s_edges s e = Some ed -> e_2 ed <> None) ->
    (exists e q, In e (n_edges nc) /\ slot (forget D s) q = Some e /\ fst q <> c) ->
    (forall ps, get_partners c s = (s, Some ps) -> length (keptE (forget D s) (n_edges nc) (map fst ps)) < letters) ->
    exists s' N, contract_copy_node letters c s = (s', Some N).
  Proof.
    intros W HDn Hc Ht Hnm Hnd Hatt Hlet. set (sl := forget D s) in *. set (cut := n_edges nc) in *. destruct (forget_node Hc) as [Hcs HcD].
    assert (forall i e, nth_error cut i = Some e -> slot sl (c, i) = Some e) as Sc by (intros i e Hi; unfold slot; cbn [fst snd]; rewrite Hc; exact Hi).
    destruct (@partners_from_ok c cut [] s) as (ps & Eps0).
    { intros e He. destruct (In_nth_error _ _ He) as (i & Hi). destruct (wf_slot W (Sc i e Hi)) as (ed & He' & Hd & Hin & _). destruct (e_2 ed) as [q|] eqn:E2; [|exfalso; exact (Hnd e ed He He' E2)].
      exists ed, q, i. auto. }
    assert (get_partners c s = (s, Some ps)) as Eps by (unfold get_partners, bind, get_node; rewrite Hcs; exact Eps0).
    destruct (get_partners_inv W Hc Eps) as [_ P]. specialize (Hlet ps Eps). fold sl in P. set (PS := map fst ps) in *. set (E := keptE sl cut PS) in *.
    assert (ps <> []) as Hps. { destruct Hatt as (e & q & He & Sq & Nq). destruct (In_nth_error _ _ He) as (i & Hi). destruct (pt_all P (ex_intro _ i (Sc i e Hi)) Sq) as [Q|Q]; [contradiction|]. intros ->. destruct Q. }
    assert (forall p, In p PS -> exists nd, s_nodes sl p = Some nd /\ s_nodes s p = Some nd /\ p < s_nn s /\ ~ In p D) as HPS.
    { intros p Hp. destruct (pt_node P Hp) as (nd & Hn). exists nd. destruct (forget_node Hn) as [Hn' HD]. repeat split; auto. apply (wf_nn W Hn). }
    assert (keptE s cut PS = E) as EE by (symmetry; apply keptE_forget; intros p Hp; destruct (HPS p Hp) as (? & _ & _ & _ & Q); exact Q).
    assert (forall e, In e cut -> edim sl e = d) as HdC.
    { intros e He. destruct (In_nth_error _ _ He) as (i & Hi). pose proof (edim_dimat W (Sc i e Hi)) as K. unfold dimat in K. cbn [fst snd] in K. rewrite Hc, (proj1 Ht) in K. apply nth_error_In, repeat_spec in K. congruence. }
    assert (forall p nd j, s_nodes sl p = Some nd -> j < length (n_edges nd) -> nth j (shape (n_t nd)) 0 = edim sl (nth j (n_edges nd) 0)) as Hdim.
    { intros p nd j Hn Hj. assert (slot sl (p, j) = Some (nth j (n_edges nd) 0)) as Sj by (unfold slot; cbn [fst snd]; rewrite Hn; apply nth_error_nth'; exact Hj).
      pose proof (edim_dimat W Sj) as K. unfold dimat in K. cbn [fst snd] in K. rewrite Hn in K. apply nth_error_nth_some. exact K. }
    set (g := fun x => if x =? 0 then d else edim sl (nth (x - 1) E 0)).
    assert (forall p l, In (p, l) ps -> exists nd, s_nodes s p = Some nd /\ s_nodes sl p = Some nd /\ length (n_edges nd) = rank (n_t nd)) as HN.
    { intros p l Hp. destruct (HPS p) as (nd & Hn & Hn' & _); [apply (in_map fst) in Hp; exact Hp|]. exists nd. split; [exact Hn'|]. split; [exact Hn | apply (wf_rank W Hn)]. }
    destruct (@input_terms_ok s cut d g ps 1) as (net & nx & Enet & Lnet & Hfit).
    { intros p l Hp. destruct (HN p l Hp) as (nd & Hn' & Hn & HR). exists nd. split; [exact Hn'|]. split; [exact HR|]. intros j Hj. split; [exact (mem_axes W P Hc Hp Hn Hj)|].
      intros Mj. rewrite (Hdim p nd j Hn Hj). apply HdC. apply mem_In, Mj. }
    { fold PS. rewrite EE. intros k p l nd j Hp Hn' Hj Hk. destruct (HN p l Hp) as (nd' & Hn2 & Hn & HR). assert (nd' = nd) as -> by congruence.
      assert (j < length (n_edges nd)) as Lj by (apply nth_error_Some; congruence). rewrite (Hdim p nd j Hn Lj), (nth_error_nth_some 0 Hj). unfold g. cbn [Nat.add Nat.eqb]. f_equal. f_equal. lia. }
    destruct (input_terms_inv (cut := cut) (ps := ps) (next := 1) (s := s) (s' := s) (net := net) (next' := nx)) as (_ & Enx & L1 & L2 & _); [|exact Enet|].
    { intros p l Hp. destruct (HN p l Hp) as (nd & Hn' & Hn & HR). exists nd. split; [exact Hn'|]. split; [exact HR|]. intros j Hj. exact (mem_axes W P Hc Hp Hn Hj). }
    fold PS in Enx. rewrite EE in Enx.
    destruct (@np_einsum_ok net g (seq 1 (nx - 1))) as (t & Et).
    { intros ->. destruct ps; [congruence | discriminate Lnet]. }
    { exact Hfit. }
    { intros x Hx. apply L1 in Hx. lia. }
    { apply seq_NoDup. }
    { intros x Hx. apply in_seq in Hx. apply L2. lia. }
    assert (compute_contracted_tensor letters c s = (s, Some t)) as Ect.
    { unfold compute_contracted_tensor, bind. rewrite Eps, Enet. cbn [fst snd]. rewrite Et. reflexivity. }
    destruct (@compute_inv R letters D c s s t nc d W Hc Ht Ect) as (_ & ps' & Eps' & _ & _ & Hsh & _). rewrite Eps in Eps'. injection Eps' as <-. fold sl PS cut E in Hsh.
    assert (rank t = length E) as Erk by (unfold rank; rewrite Hsh, map_length; reflexivity).
    unfold contract_copy_node. unfold bind at 1. rewrite Ect.
    assert (exists s1 M, new_node t None s = (s1, Some M)) as (s1 & M & Enew).
    { unfold new_node, bind, guard, ret, next_node. destruct (alloc_edges_ok (s_nn s) 0 (rank t) s) as [s0 ->]. unfold alloc_node. eauto. }
    unfold bind at 1. rewrite Enew.
    destruct (new_node_inv Enew) as (nms & EM & Enn & Ene & Lnms & _ & _ & Hn1 & He1).
    assert (c < M) as LcM by (rewrite EM; apply (wf_nn W Hc)).
    assert (s_nodes s1 c = Some nc) as Hc1 by (rewrite Hn1; destruct (Nat.eqb_spec c M); [lia | exact Hcs]).
    assert (forall q e, slot sl q = Some e -> s_edges s1 e = s_edges s e /\ e < s_ne s) as Hes.
    { intros q e Hq. rewrite He1. destruct (slot_lt W Hq) as [_ Hlt]. cbn [sl forget s_ne] in Hlt. destruct (Nat.leb_spec (s_ne s) e); [lia | auto]. }
    assert (get_partners c s1 = (s1, Some ps)) as Eps1.
    { apply (@get_partners_ext R c s s1 s ps nc Hcs Hc1); [|exact Eps]. intros e He. destruct (In_nth_error _ _ He) as (i & Hi). apply (Hes (c, i) e (Sc i e Hi)). }
    unfold bind at 1. rewrite Eps1. fold PS.
    set (tch := fun e => match s_edges s1 e with Some ed => touches ed c | None => false end).
    assert (~ In M PS) as HMP by (intros K; destruct (HPS M K) as (_ & _ & _ & L & _); lia).
    assert (forall p, In p PS -> s_nodes s1 p = s_nodes sl p) as Hnp.
    { intros p Hp. destruct (HPS p Hp) as (nd & Hn & Hn' & L & _). rewrite Hn, Hn1, Hn'. destruct (Nat.eqb_spec p M); [lia | reflexivity]. }
    assert (forall p j e, In p PS -> nth_error (edges_at0 sl p) j = Some e -> slot sl (p, j) = Some e) as Hslot.
    { intros p j e Hp Hj. unfold slot, edges_at0 in *. cbn [fst snd]. destruct (s_nodes sl p); [exact Hj | destruct j; discriminate]. }
    assert (moved tch s1 PS = map (fun q => (se sl q, fst q)) (slots sl cut PS)) as EL.
    { rewrite (@moved_ext R tch sl s1 PS) by exact Hnp. apply slots_moved. intros p e Hp He. apply In_nth_error in He. destruct He as (j & Hj). pose proof (Hslot p j e Hp Hj) as Sj.
      destruct (wf_slot W Sj) as (ed & He' & _). unfold tch. rewrite (proj1 (Hes _ _ Sj)). change (s_edges sl e) with (s_edges s e) in He'. rewrite He'. exact (wf_touches W Hc Sj He'). }
    assert (length (moved tch s1 PS) = length E) as LL by (rewrite EL, map_length; unfold E; rewrite slots_kept, map_length; reflexivity).
    set (A := flat_map (edges_at0 sl) PS).
    assert (forall e, In e A -> exists q, slot sl q = Some e) as HA.
    { intros e He. apply in_flat_map in He. destruct He as (p & Hp & He). apply In_nth_error in He. destruct He as (j & Hj). exists (p, j). apply Hslot; assumption. }
    destruct (@copy_moves_ok tch c M A PS ltac:(lia) (pt_self P) HMP 0 s1) as (s2 & k & Emv).
    { intros p Hp. unfold is_node. rewrite Hnp by exact Hp. destruct (HPS p Hp) as (nd & -> & _). discriminate. }
    { intros p e Hp He. apply in_flat_map. exists p. split; [exact Hp|]. unfold edges_at0 in *. rewrite Hnp in He by exact Hp. exact He. }
    { constructor.
      - intros e He. destruct (HA e He) as (q & Sq). destruct (wf_slot W Sq) as (ed & He' & Hd & _). exists ed. rewrite (proj1 (Hes _ _ Sq)). auto.
      - intros e p Hin. rewrite EL in Hin. apply in_map_iff in Hin. destruct Hin as (q & Eq & Hq). injection Eq as <- <-. apply slots_In in Hq. destruct Hq as [Hp (e & Sq & _)].
        apply in_flat_map. exists (fst q). split; [exact Hp|]. apply slot_edges_at0 in Sq. unfold se. apply nth_In. apply Sq.
      - intros e ed He HeA. destruct (HA e HeA) as (q0 & S0). rewrite (proj1 (Hes _ _ S0)) in He. change (s_edges s e) with (s_edges sl e) in He. destruct (wf_slot W S0) as (ed' & He' & _ & _ & NDe & _). assert (ed' = ed) as -> by congruence.
        exists (map fst (filter (fun q => negb (mem (fst q) PS && negb (mem e cut))) (ends ed))).
        assert (onlist e (moved tch s1 PS) = map fst (filter (fun q => se sl q =? e) (slots sl cut PS))) as -> by (unfold onlist; rewrite EL, filter_map, map_map; reflexivity).
        rewrite <- map_app. apply Permutation_map. eapply perm_trans; [apply Permutation_sym, (filter_both (fun q => mem (fst q) PS && negb (mem e cut)))|].
        eapply perm_trans; [apply Permutation_app_comm|]. apply Permutation_app; [|apply Permutation_refl].
        apply NoDup_Permutation; [apply NoDup_filter, NDe | apply NoDup_filter, slots_NoDup, (pt_nodup P)|]. intros q. rewrite !filter_In, Nat.eqb_eq, Bool.andb_true_iff, mem_In, Bool.negb_true_iff, mem_nIn, slots_In. split.
        + intros [Hq [Hp Hx]]. pose proof (ends_live W S0 He Hq) as Sq. split; [|apply se_slot, Sq]. split; [exact Hp|]. exists e. auto.
        + intros [[Hp (e' & Sq & Hx)] Eq]. assert (e' = e) as -> by (apply se_slot in Sq; congruence). split; [exact (live_in_ends W Sq He) | auto].
      - exists (Node t (seq (s_ne s) (rank t)) nms). split; [rewrite Hn1, Nat.eqb_refl; reflexivity|]. cbn [n_t n_edges]. split; [lia|]. split; [apply seq_length|].
        intros j Hj. exists (s_ne s + j). exists (Edge M (s_ne s + j - s_ne s) None false). split; [rewrite nth_error_nth' with (d := 0) by (rewrite seq_length; lia); rewrite seq_nth by lia; reflexivity|].
        split; [rewrite He1; destruct (Nat.leb_spec (s_ne s) (s_ne s + j)); [|lia]; destruct (Nat.ltb_spec (s_ne s + j) (s_ne s + rank t)); [reflexivity | lia]|]. split; [reflexivity|].
        intros Q. destruct (HA _ Q) as (q & Sq). destruct (Hes _ _ Sq). lia.
      - intros e ed He. unfold tch. rewrite He. reflexivity. }
    unfold bind at 1. rewrite Emv.
    destruct (@copy_moves_inv R tch c M PS ltac:(lia) (pt_self P) HMP 0 s1 s2 k (Node t (seq (s_ne s) (rank t)) nms)) as (Ek & _ & _ & Hn2 & He2); [rewrite Hn1, Nat.eqb_refl; reflexivity | | exact Emv |].
    { intros e ed He. unfold tch. rewrite He. reflexivity. }
    assert (rank t = k) as -> by lia. rewrite Nat.eqb_refl. unfold bind at 1, guard, ret.
    destruct (@fresh_ok R s2 c nc) as (s3 & E3).
    - rewrite Hn2. destruct (Nat.eqb_spec c M); [lia | exact Hc1].
    - apply (wf_rank W Hc).
    - exact Hnm.
    - intros e He. fold cut in He. destruct (In_nth_error _ _ He) as (i & Hi). pose proof (Sc i e Hi) as Si. rewrite He2, (proj1 (Hes _ _ Si)). destruct (wf_slot W Si) as (ed & He' & _). change (s_edges s e) with (s_edges sl e). rewrite He'. discriminate.
    - unfold bind. rewrite E3. eauto.
  Qed.
End Total.
