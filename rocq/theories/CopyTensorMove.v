(** * CopyTensorMove: the loop of contract_copy_node which re-attaches the edges of the partners *)
From Coq Require Import Permutation.
From Verif Require Import Prelude Algebra Tensor TensorFacts Einsum EinsumFacts NetworkFacts Graph GraphBase GraphContract GraphOps GraphValue GraphOuter GraphConnect GraphQuery GraphQueryFacts GraphCompound CopyTensor CopyTensorSum CopyTensorNet.
Set Implicit Arguments.
Unset Strict Implicit.
Local Open Scope csr_scope.

(** the end of [ed] on node [p] becomes [x] *)
Definition appn (ed : edge) (p : nid) (x : nid * nat) : edge :=
  if e_n1 ed =? p then Edge (fst x) (snd x) (e_2 ed) false else Edge (e_n1 ed) (e_a1 ed) (Some x) false.
(** the edges of the list leave their nodes for axes k, k+1, .. of N: the effect on the edge [e] *)
Fixpoint appmoves (N : nid) (e : eid) (k : nat) (L : list (eid * nid)) (ed : edge) : edge :=
  match L with
  | [] => ed
  | (f, p) :: r => appmoves N e (S k) r (if f =? e then appn ed p (N, k) else ed)
  end.
Lemma appmoves_app N e k L L' ed : appmoves N e k (L ++ L') ed = appmoves N e (k + length L) L' (appmoves N e k L ed).
Proof.
  revert k ed. induction L as [|[f p] L IH]; intros k ed; cbn [app appmoves length]; [rewrite Nat.add_0_r; reflexivity|].
  rewrite IH. f_equal. lia.
Qed.

Lemma put_all_app k l l' m : put_all k (l ++ l') m = put_all (k + length l) l' (put_all k l m).
Proof.
  revert k m. induction l as [|x l IH]; intros k m; cbn [app put_all length]; [rewrite Nat.add_0_r; reflexivity|]. rewrite IH. f_equal. lia.
Qed.
Lemma put_all_length k l m : length (put_all k l m) = length m.
Proof. revert k m. induction l as [|x l IH]; intros k m; cbn [put_all]; [reflexivity|]. rewrite IH. apply replace_nth_length. Qed.

(** the ends of the moved edge *)
Lemma appmoves_ends (N : nid) (e : eid) (PS : list nid) : ~ In N PS ->
  forall (L : list (eid * nid)) k ed,
  (forall f p, In (f, p) L -> In p PS) ->
  Permutation (map snd (filter (fun x => fst x =? e) L)) (map fst (filter (fun q => mem (fst q) PS) (ends ed))) ->
  Permutation (ends (appmoves N e k L ed))
    (filter (fun q => negb (mem (fst q) PS)) (ends ed) ++ map (fun x => (N, snd x)) (filter (fun x => fst (fst x) =? e) (combine L (seq k (length L))))).
Proof.
  intros HN. assert (mem N PS = false) as MN by (apply mem_nIn, HN).
  induction L as [|[f p] L IH]; intros k ed HL HP.
  - cbn [filter map length seq combine appmoves] in HP |- *. rewrite app_nil_r. apply Permutation_nil in HP. apply map_eq_nil in HP.
    assert (forall l, filter (fun q : nid * nat => mem (fst q) PS) l = [] -> filter (fun q => negb (mem (fst q) PS)) l = l) as K.
    { clear. induction l as [|x l IH]; [reflexivity|]. cbn [filter]. destruct (mem (fst x) PS); [discriminate|]. intros H. cbn [negb]. rewrite IH by exact H. reflexivity. }
    rewrite K by exact HP. reflexivity.
  - cbn [length seq combine filter fst snd appmoves]. cbn [filter fst] in HP.
    assert (forall f p, In (f, p) L -> In p PS) as HL' by (intros; eapply HL; right; eassumption).
    destruct (Nat.eqb_spec f e) as [->|Hne]; [|apply IH; assumption].
    cbn [map snd] in HP. assert (In p PS) as Hp by (eapply HL; left; reflexivity). assert (mem p PS = true) as Mp by (apply mem_In, Hp).
    unfold appn. destruct (Nat.eqb_spec (e_n1 ed) p) as [E|Hne].
    + assert (ends ed = (p, e_a1 ed) :: match e_2 ed with Some q => [q] | None => [] end) as Ee by (unfold ends; rewrite E; reflexivity).
      rewrite Ee in HP. cbn [filter fst] in HP. rewrite Mp in HP. cbn [map fst] in HP. apply Permutation_cons_inv in HP.
      eapply perm_trans; [apply IH; [exact HL'|]|].
      * unfold ends at 1. cbn [e_n1 e_a1 e_2 filter fst]. cbn [fst snd]. rewrite MN. exact HP.
      * unfold ends at 1. cbn [e_n1 e_a1 e_2 filter fst snd]. rewrite MN. cbn [negb]. rewrite Ee. cbn [filter fst]. rewrite Mp. cbn [negb map snd app].
        apply Permutation_middle.
    + destruct (e_2 ed) as [[n2 a2]|] eqn:E2.
      2:{ exfalso. unfold ends in HP. rewrite E2 in HP. assert (In p (map fst (filter (fun q => mem (fst q) PS) [(e_n1 ed, e_a1 ed)]))) as K by (eapply Permutation_in; [exact HP | left; reflexivity]).
          apply in_map_iff in K. destruct K as (q & Eq & Hq). apply filter_In in Hq. destruct Hq as [[<-|[]] _]. cbn in Eq. congruence. }
      assert (ends ed = [(e_n1 ed, e_a1 ed); (n2, a2)]) as Ee by (unfold ends; rewrite E2; reflexivity).
      assert (n2 = p) as ->.
      { rewrite Ee in HP. assert (In p (map fst (filter (fun q => mem (fst q) PS) [(e_n1 ed, e_a1 ed); (n2, a2)]))) as K by (eapply Permutation_in; [exact HP | left; reflexivity]).
        apply in_map_iff in K. destruct K as (q & Eq & Hq). apply filter_In in Hq. destruct Hq as [[<-|[<-|[]]] _]; cbn in Eq; congruence. }
      assert (ends (Edge (e_n1 ed) (e_a1 ed) (Some (N, k)) false) = [(e_n1 ed, e_a1 ed); (N, k)]) as Ee' by reflexivity.
      eapply perm_trans; [apply IH; [exact HL'|]|].
      * rewrite Ee'. rewrite Ee in HP. cbn [filter fst] in HP |- *. rewrite Mp in HP. rewrite MN. destruct (mem (e_n1 ed) PS); cbn [map fst] in HP |- *.
        -- eapply Permutation_cons_inv with (a := p). eapply perm_trans; [exact HP | apply perm_swap].
        -- eapply Permutation_cons_inv with (a := p). exact HP.
      * rewrite Ee', Ee. cbn [filter fst]. rewrite Mp, MN. cbn [negb map snd]. destruct (mem (e_n1 ed) PS); cbn [negb app]; [reflexivity | reflexivity].
Qed.
Lemma appmoves_dis N e L k ed : e_dis ed = false -> e_dis (appmoves N e k L ed) = false.
Proof.
  revert k ed. induction L as [|[f p] L IH]; intros k ed H; [exact H|]. cbn [appmoves]. apply IH. destruct (f =? e); [|exact H]. unfold appn. destruct (_ =? p); reflexivity.
Qed.

Section Move.
  Context {R : csr}.
  Notation st := (@st R).
  Implicit Types (s : st).

  Lemma copy_move_inv (tch : eid -> bool) c p N k es s s' k' dN : N <> c -> p <> c -> N <> p -> s_nodes s N = Some dN ->
    (forall e ed, s_edges s e = Some ed -> touches ed c = tch e) ->
    copy_move c p N k es s = (s', Some k') ->
    let L := filter (fun e => negb (tch e)) es in
    k' = k + length L /\ s_nn s' = s_nn s /\ s_ne s' = s_ne s /\
    (forall m, s_nodes s' m = if m =? N then Some (Node (n_t dN) (put_all k L (n_edges dN)) (n_names dN)) else s_nodes s m) /\
    (forall e, s_edges s' e = option_map (appmoves N e k (map (fun e => (e, p)) L)) (s_edges s e)) /\
    (forall e ed, s_edges s' e = Some ed -> touches ed c = tch e).
  Proof.
    intros Nc pc Np. revert k s dN. induction es as [|e es IH]; intros k s dN HN Ht H L.
    - injection H as <- <-. cbn. repeat split; try lia; auto.
      + intros m. destruct (Nat.eqb_spec m N) as [->|]; [rewrite HN; destruct dN; reflexivity | reflexivity].
      + intros e. destruct (s_edges s e); reflexivity.
    - cbn [copy_move] in H. apply bind_inv in H. destruct H as (ed & s1 & H1 & H). apply get_edge_inv in H1. destruct H1 as (-> & He & Hd).
      rewrite (Ht e ed He) in H. unfold L. cbn [filter]. destruct (tch e) eqn:Et; cbn [negb]; [apply IH; assumption|].
      apply bind_inv in H. destruct H as (old & s1 & H1 & H).
      assert (s1 = s /\ old = if e_n1 ed =? p then e_a1 ed else match e_2 ed with Some (_, a2) => a2 | None => 0 end) as (-> & Eo).
      { destruct (e_n1 ed =? p); [injection H1 as <- <-; auto|]. destruct (e_2 ed) as [[n2 a2]|]; [injection H1 as <- <-; auto | discriminate]. }
      apply bind_inv in H. destruct H as (u & s1 & H2 & H). apply bind_inv in H. destruct H as (u' & s2 & H3 & H).
      assert (s1 = with_edge s e (appn ed p (N, k)) /\ touches (appn ed p (N, k)) c = false) as (-> & Ht').
      { specialize (Ht e ed He). rewrite Et in Ht. unfold touches in Ht |- *.
        unfold update_axis in H2. apply bind_inv in H2. destruct H2 as (ed' & s3 & H4 & H2). apply get_edge_inv in H4. destruct H4 as (-> & He' & _). assert (ed' = ed) as -> by congruence.
        unfold appn. cbn [fst snd] in H2. destruct (Nat.eqb_spec (e_n1 ed) p) as [E|E].
        - rewrite Eo, Nat.eqb_refl in H2. cbn [andb] in H2. apply set_edge_inv in H2. split; [exact H2|]. cbn [e_n1 e_2 fst].
          apply Bool.orb_false_elim in Ht. destruct Ht as [_ Ht]. rewrite Ht. destruct (Nat.eqb_spec N c); [congruence | reflexivity].
        - rewrite Bool.andb_false_r in H2. destruct (e_2 ed) as [[n2 a2]|]; [|discriminate]. destruct ((a2 =? old) && (n2 =? p)) eqn:E2; [|discriminate].
          apply set_edge_inv in H2. split; [exact H2|]. cbn [e_n1 e_2]. apply Bool.orb_false_elim in Ht. destruct Ht as [Ht _]. rewrite Ht. destruct (Nat.eqb_spec N c); [congruence | reflexivity]. }
      apply add_edge_inv in H3. destruct H3 as (dN' & HN' & Hk & Hk' & ->). cbn [with_edge s_nodes] in HN'. assert (dN' = dN) as -> by congruence.
      apply IH with (dN := Node (n_t dN) (replace_nth k e (n_edges dN)) (n_names dN)) in H.
      + cbn [n_t n_edges n_names with_node with_edge s_nodes s_edges s_nn s_ne] in H. destruct H as (E1 & E2 & E3 & E4 & E5 & E6). cbn [length put_all map].
        split; [lia|]. split; [exact E2|]. split; [exact E3|]. split; [|split; [|exact E6]].
        * intros m. rewrite E4. destruct (Nat.eqb_spec m N); [reflexivity|]. unfold upd. destruct (Nat.eq_dec m N); [congruence | reflexivity].
        * intros f. rewrite E5. unfold upd. cbn [appmoves]. destruct (Nat.eq_dec f e) as [->|Hf].
          -- rewrite He, Nat.eqb_refl. reflexivity.
          -- destruct (Nat.eqb_spec e f); [congruence|]. reflexivity.
      + cbn [with_node s_nodes]. unfold upd. destruct (Nat.eq_dec N N); [reflexivity | congruence].
      + cbn [with_node with_edge s_edges]. intros f fd. unfold upd. destruct (Nat.eq_dec f e) as [->|Hf]; [|apply Ht]. intros K. injection K as <-. rewrite Et. exact Ht'.
  Qed.

  (** the entries (edge, node) moved, in order *)
  Definition moved (tch : eid -> bool) s (PS : list nid) : list (eid * nid) :=
    flat_map (fun p => map (fun e => (e, p)) (filter (fun e => negb (tch e)) (edges_at0 s p))) PS.
  Lemma moved_ext tch s s' PS : (forall p, In p PS -> s_nodes s' p = s_nodes s p) -> moved tch s' PS = moved tch s PS.
  Proof.
    intros H. unfold moved. induction PS as [|p PS IH]; [reflexivity|]. cbn [flat_map]. rewrite IH by (intros q Hq; apply H; right; exact Hq). unfold edges_at0. rewrite (H p) by (left; reflexivity). reflexivity.
  Qed.

  Lemma copy_moves_inv (tch : eid -> bool) c N PS : N <> c -> ~ In c PS -> ~ In N PS ->
    forall k s s' k' dN, s_nodes s N = Some dN ->
    (forall e ed, s_edges s e = Some ed -> touches ed c = tch e) ->
    copy_moves c N k PS s = (s', Some k') ->
    let L := moved tch s PS in
    k' = k + length L /\ s_nn s' = s_nn s /\ s_ne s' = s_ne s /\
    (forall m, s_nodes s' m = if m =? N then Some (Node (n_t dN) (put_all k (map fst L) (n_edges dN)) (n_names dN)) else s_nodes s m) /\
    (forall e, s_edges s' e = option_map (appmoves N e k L) (s_edges s e)).
  Proof.
    intros Nc. induction PS as [|p PS IH]; intros HcP HNP k s s' k' dN HN Ht H L.
    - injection H as <- <-. cbn. repeat split; try lia; auto.
      + intros m. destruct (Nat.eqb_spec m N) as [->|]; [rewrite HN; destruct dN; reflexivity | reflexivity].
      + intros e. destruct (s_edges s e); reflexivity.
    - cbn [copy_moves] in H. apply bind_inv in H. destruct H as (nd & s1 & H1 & H). apply get_node_inv in H1. destruct H1 as (-> & Hp).
      apply bind_inv in H. destruct H as (k1 & s1 & H1 & H). cbn in HcP, HNP.
      destruct (@copy_move_inv tch c p N k (n_edges nd) s s1 k1 dN) as (-> & E1 & E2 & E3 & E4 & E5); auto.
      assert (s_nodes s1 N = Some (Node (n_t dN) (put_all k (filter (fun e => negb (tch e)) (n_edges nd)) (n_edges dN)) (n_names dN))) as HN1 by (rewrite E3, Nat.eqb_refl; reflexivity).
      destruct (IH ltac:(tauto) ltac:(tauto) _ _ _ _ _ HN1 E5 H) as (F1 & F2 & F3 & F4 & F5). cbn [n_t n_edges n_names] in F4.
      assert (moved tch s1 PS = moved tch s PS) as EL.
      { apply moved_ext. intros q Hq. rewrite E3. destruct (Nat.eqb_spec q N) as [->|]; [tauto | reflexivity]. }
      rewrite EL in *. unfold L, moved. cbn [flat_map]. fold (moved tch s PS). unfold edges_at0. rewrite Hp.
      rewrite app_length, map_length. split; [lia|]. split; [congruence|]. split; [congruence|]. split.
      + intros m. rewrite F4. destruct (Nat.eqb_spec m N); [|rewrite E3; destruct (Nat.eqb_spec m N); [congruence | reflexivity]].
        rewrite map_app, map_map, map_id, put_all_app. reflexivity.
      + intros e. rewrite F5, E4. destruct (s_edges s e) as [ed|]; [|reflexivity]. cbn [option_map]. rewrite appmoves_app, map_length. reflexivity.
  Qed.
End Move.
