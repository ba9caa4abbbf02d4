(** * GraphBase: what each heap primitive does, and the well-formedness invariant *)
From Verif Require Import Prelude Algebra Tensor TensorFacts Einsum EinsumFacts NetworkFacts Graph.
Set Implicit Arguments.
Unset Strict Implicit.

(** ** List facts *)
Lemma replace_nth_length A k (x : A) l : length (replace_nth k x l) = length l.
Proof. revert k. induction l as [|y r IH]; intros [|k]; simpl; auto. Qed.

Lemma nth_error_replace_nth A k (x : A) l j :
  nth_error (replace_nth k x l) j = if Nat.eqb j k then (if Nat.ltb k (length l) then Some x else None) else nth_error l j.
Proof.
  revert k j. induction l as [|y r IH]; intros k j.
  - destruct k, j; simpl; try reflexivity; destruct (Nat.eqb j k); reflexivity.
  - destruct k as [|k]; destruct j as [|j]; try reflexivity.
    cbn [replace_nth nth_error]. rewrite IH. cbn [Nat.eqb length].
    destruct (Nat.eqb j k); [|reflexivity].
    change (Nat.ltb (S k) (S (length r))) with (Nat.ltb k (length r)). reflexivity.
Qed.

Lemma nth_error_gather A (d : A) l ix k :
  nth_error (gather d l ix) k = match nth_error ix k with Some i => Some (nth i l d) | None => None end.
Proof. unfold gather. rewrite nth_error_map. destruct (nth_error ix k); reflexivity. Qed.

Lemma nth_error_nth_some A (l : list A) k x d : nth_error l k = Some x -> nth k l d = x.
Proof. apply nth_error_nth. Qed.

Section GB.
  Context {R : csr}.
  Notation st := (@st R).
  Notation node := (@node R).
  Notation M := (@M R).
  Implicit Types (s : st) (e : eid).

  (** ** Monad inversion *)
  Lemma bind_inv A B (m : M A) (f : A -> M B) s s' r :
    bind m f s = (s', Some r) -> exists x s1, m s = (s1, Some x) /\ f x s1 = (s', Some r).
  Proof.
    unfold bind. destruct (m s) as [s1 [x|]]; [|discriminate]. intros H. exists x, s1. auto.
  Qed.

  Lemma guard_inv b s s' (x : unit) : guard b s = (s', Some x) -> b = true /\ s' = s.
  Proof. unfold guard, ret, fail. destruct b; [|discriminate]. intros H. injection H as <- _. auto. Qed.

  Lemma get_node_inv n s s' nd : get_node n s = (s', Some nd) -> s' = s /\ s_nodes s n = Some nd.
  Proof. unfold get_node. intros H. injection H as <- H. auto. Qed.

  Lemma get_edge_inv e s s' ed : get_edge e s = (s', Some ed) -> s' = s /\ s_edges s e = Some ed /\ e_dis ed = false.
  Proof.
    unfold get_edge. destruct (s_edges s e) as [x|]; [|discriminate].
    destruct (e_dis x) eqn:E; [discriminate|]. intros H. injection H as <- <-. auto.
  Qed.

  Definition with_node s n nd : st := St (upd Nat.eq_dec (s_nodes s) n (Some nd)) (s_edges s) (s_nn s) (s_ne s).
  Definition with_edge s e ed : st := St (s_nodes s) (upd Nat.eq_dec (s_edges s) e (Some ed)) (s_nn s) (s_ne s).

  Lemma set_node_inv n nd s s' (x : unit) : set_node n nd s = (s', Some x) -> s' = with_node s n nd.
  Proof. unfold set_node. intros H. injection H as <- _. reflexivity. Qed.
  Lemma set_edge_inv e ed s s' (x : unit) : set_edge e ed s = (s', Some x) -> s' = with_edge s e ed.
  Proof. unfold set_edge. intros H. injection H as <- _. reflexivity. Qed.

  Definition slot s (p : nid * nat) : option eid :=
    match s_nodes s (fst p) with Some nd => nth_error (n_edges nd) (snd p) | None => None end.
  Definition dimat s (p : nid * nat) : option nat :=
    match s_nodes s (fst p) with Some nd => nth_error (shape (n_t nd)) (snd p) | None => None end.

  (** ** Well-formedness, except that edges in X may have lost their other end *)
  Record wfx (X : eid -> Prop) s : Prop := {
    wf_rank : forall n nd, s_nodes s n = Some nd -> length (n_edges nd) = rank (n_t nd);
    wf_nn : forall n nd, s_nodes s n = Some nd -> n < s_nn s;
    wf_ne : forall e ed, s_edges s e = Some ed -> e < s_ne s;
    wf_slot : forall p e, slot s p = Some e ->
      exists ed, s_edges s e = Some ed /\ e_dis ed = false /\ In p (ends ed) /\ NoDup (ends ed) /\
                 (~ X e -> forall q, In q (ends ed) -> slot s q = Some e /\ dimat s q = dimat s p)
  }.
  Definition wf s : Prop := wfx (fun _ => False) s.

  Lemma wfx_weaken (X Y : eid -> Prop) s : (forall e, X e -> Y e) -> wfx X s -> wfx Y s.
  Proof.
    intros H W. split; try apply W.
    intros p e Hp. destruct (wf_slot W Hp) as (ed & H1 & H2 & H3 & H4 & H5).
    exists ed. repeat split; auto; apply H5; auto.
  Qed.

  Lemma wfx_strengthen (X : eid -> Prop) s : (forall p e, slot s p = Some e -> ~ X e) -> wfx X s -> wf s.
  Proof.
    intros H W. split; try apply W.
    intros p e Hp. destruct (wf_slot W Hp) as (ed & H1 & H2 & H3 & H4 & H5).
    exists ed. repeat split; auto; apply H5; eauto.
  Qed.

  Lemma slot_lt (X : eid -> Prop) s p e : wfx X s -> slot s p = Some e -> fst p < s_nn s /\ e < s_ne s.
  Proof.
    intros W Hp. split.
    - unfold slot in Hp. destruct (s_nodes s (fst p)) eqn:E; [|discriminate]. apply (wf_nn W E).
    - destruct (wf_slot W Hp) as (ed & H1 & _). apply (wf_ne W H1).
  Qed.

  (** ** Effects of the primitives *)
  Lemma add_edge_inv n e ax ov s s' (x : unit) :
    add_edge n e ax ov s = (s', Some x) ->
    exists nd, s_nodes s n = Some nd /\ ax < rank (n_t nd) /\ ax < length (n_edges nd) /\
               s' = with_node s n (Node (n_t nd) (replace_nth ax e (n_edges nd)) (n_names nd)).
  Proof.
    unfold add_edge. intros H.
    apply bind_inv in H. destruct H as (nd & s1 & H1 & H). apply get_node_inv in H1. destruct H1 as [-> H1].
    apply bind_inv in H. destruct H as (u & s1 & H2 & H). apply guard_inv in H2. destruct H2 as [H2 ->].
    apply Nat.ltb_lt in H2. destruct (nth_error (n_edges nd) ax) as [old|] eqn:E; [|discriminate].
    apply bind_inv in H. destruct H as (oe & s1 & H3 & H). injection H3 as <- H3.
    apply bind_inv in H. destruct H as (u' & s1 & H4 & H). apply guard_inv in H4. destruct H4 as [_ ->].
    apply set_node_inv in H. subst s'. exists nd. repeat split; auto.
    apply nth_error_Some. congruence.
  Qed.

  (** what [add_all] leaves in the node *)
  Fixpoint put_all (i : nat) (es l : list nat) : list nat :=
    match es with [] => l | e :: r => put_all (S i) r (replace_nth i e l) end.

  Lemma put_all_full es l i : i + length es = length l -> put_all i es l = firstn i l ++ es.
  Proof.
    revert i l. induction es as [|e r IH]; intros i l Hl; cbn [put_all].
    - rewrite app_nil_r. rewrite firstn_all2; [reflexivity|]. simpl in Hl. lia.
    - simpl in Hl. rewrite IH by (rewrite replace_nth_length; lia).
      assert (firstn (S i) (replace_nth i e l) = firstn i l ++ [e]) as E.
      { assert (i < length l) as Hi by lia. clear - Hi. revert l Hi. induction i as [|i IH]; intros [|y l] Hi; simpl in Hi; try lia.
        - reflexivity.
        - cbn [replace_nth]. rewrite !firstn_cons. cbn [app]. f_equal. rewrite IH by lia. reflexivity. }
      rewrite E, <- app_assoc. reflexivity.
  Qed.

  (** extensional equality of heaps *)
  Definition heq s s' : Prop :=
    (forall n, s_nodes s n = s_nodes s' n) /\ (forall e, s_edges s e = s_edges s' e) /\
    s_nn s = s_nn s' /\ s_ne s = s_ne s'.

  Lemma add_all_inv n i es ov s s' (x : unit) nd :
    s_nodes s n = Some nd -> i + length es = length (n_edges nd) ->
    add_all n i es ov s = (s', Some x) ->
    (forall m, s_nodes s' m = if Nat.eqb m n then Some (Node (n_t nd) (firstn i (n_edges nd) ++ es) (n_names nd)) else s_nodes s m) /\
    s_edges s' = s_edges s /\ s_nn s' = s_nn s /\ s_ne s' = s_ne s.
  Proof.
    revert i s nd. induction es as [|e r IH]; intros i s nd Hn Hl H; cbn [add_all] in H.
    - injection H as <- _. repeat split. intros m. destruct (Nat.eqb_spec m n) as [->|]; [|reflexivity].
      rewrite app_nil_r, firstn_all2 by (simpl in Hl; lia). rewrite Hn. destruct nd. reflexivity.
    - apply bind_inv in H. destruct H as (u & s1 & H1 & H). apply add_edge_inv in H1.
      destruct H1 as (nd' & E & Hr & Hi & ->). rewrite Hn in E. injection E as <-.
      apply IH with (nd := Node (n_t nd) (replace_nth i e (n_edges nd)) (n_names nd)) in H.
      + destruct H as (H1 & H2 & H3 & H4). repeat split; auto.
        intros m. rewrite H1. cbn [n_t n_edges n_names]. unfold with_node. cbn [s_nodes].
        unfold upd. destruct (Nat.eqb_spec m n) as [->|Hne].
        * do 2 f_equal.
          assert (firstn (S i) (replace_nth i e (n_edges nd)) = firstn i (n_edges nd) ++ [e]) as Ef.
          { clear - Hi. revert Hi. generalize (n_edges nd) as l. induction i as [|i IH]; intros [|y l] Hi; simpl in Hi; try lia.
            - reflexivity.
            - cbn [replace_nth]. rewrite !firstn_cons. cbn [app]. f_equal. rewrite IH by lia. reflexivity. }
          rewrite Ef, <- app_assoc. reflexivity.
        * destruct (Nat.eq_dec m n); [contradiction|reflexivity].
      + unfold with_node. cbn. apply upd_same.
      + cbn. rewrite replace_nth_length. simpl in Hl. lia.
  Qed.

  Lemma alloc_edges_inv n i k s s' es :
    alloc_edges n i k s = (s', Some es) ->
    es = seq (s_ne s) k /\ s_nodes s' = s_nodes s /\ s_nn s' = s_nn s /\ s_ne s' = s_ne s + k /\
    (forall e, s_edges s' e = if Nat.leb (s_ne s) e && Nat.ltb e (s_ne s + k)
                              then Some (Edge n (i + (e - s_ne s)) None false) else s_edges s e).
  Proof.
    revert i s es. induction k as [|k IH]; intros i s es H; cbn [alloc_edges] in H.
    - injection H as <- <-. repeat split; try lia; try reflexivity.
      intros e. destruct (Nat.leb_spec (s_ne s) e); cbn [andb]; [|reflexivity].
      destruct (Nat.ltb_spec e (s_ne s + 0)); [lia|reflexivity].
    - apply bind_inv in H. destruct H as (e0 & s1 & H1 & H). injection H1 as <- <-.
      apply bind_inv in H. destruct H as (es' & s2 & H2 & H). injection H as <- <-.
      apply IH in H2. destruct H2 as (-> & E1 & E2 & E3 & E4). cbn [s_nodes s_nn s_ne s_edges] in *.
      repeat split; auto; try lia.
      intros e. rewrite E4. unfold upd.
      destruct (Nat.eq_dec e (s_ne s)) as [->|Hne].
      + rewrite (proj2 (Nat.leb_nle (S (s_ne s)) (s_ne s))) by lia. cbn [andb].
        rewrite (proj2 (Nat.leb_le (s_ne s) (s_ne s))) by lia.
        rewrite (proj2 (Nat.ltb_lt (s_ne s) (s_ne s + S k))) by lia. cbn [andb].
        do 2 f_equal. lia.
      + destruct (Nat.leb_spec (S (s_ne s)) e), (Nat.leb_spec (s_ne s) e); try lia; cbn [andb];
          destruct (Nat.ltb_spec e (S (s_ne s) + k)), (Nat.ltb_spec e (s_ne s + S k)); try lia; try reflexivity.
        do 2 f_equal. lia.
  Qed.

  Lemma alloc_edges_ok n i k s : exists s', alloc_edges n i k s = (s', Some (seq (s_ne s) k)).
  Proof.
    revert i s. induction k as [|k IH]; intros i s; [eexists; reflexivity|].
    cbn [alloc_edges]. unfold bind, alloc_edge.
    destruct (IH (S i) (St (s_nodes s) (upd Nat.eq_dec (s_edges s) (s_ne s) (Some (Edge n i None false))) (s_nn s) (S (s_ne s)))) as [s' E].
    rewrite E. cbn [s_ne]. eexists. reflexivity.
  Qed.

  Lemma new_node_inv t names s s' n :
    new_node t names s = (s', Some n) ->
    exists nms, n = s_nn s /\ s_nn s' = S (s_nn s) /\ s_ne s' = s_ne s + rank t /\ length nms = rank t /\
      (names = None -> nms = seq 0 (rank t)) /\ (forall l, names = Some l -> nms = l) /\
      (forall m, s_nodes s' m = if Nat.eqb m n then Some (Node t (seq (s_ne s) (rank t)) nms) else s_nodes s m) /\
      (forall e, s_edges s' e = if Nat.leb (s_ne s) e && Nat.ltb e (s_ne s + rank t)
                                then Some (Edge n (e - s_ne s) None false) else s_edges s e).
  Proof.
    unfold new_node. intros H.
    apply bind_inv in H. destruct H as (u & s1 & H1 & H). apply guard_inv in H1. destruct H1 as [Hg ->].
    apply bind_inv in H. destruct H as (n0 & s1 & H1 & H). injection H1 as <- <-.
    apply bind_inv in H. destruct H as (es & s2 & H1 & H). apply alloc_edges_inv in H1.
    destruct H1 as (-> & E1 & E2 & E3 & E4). unfold alloc_node in H. injection H as <- <-.
    cbn [s_nodes s_edges s_nn s_ne]. rewrite E2.
    exists (match names with None => seq 0 (rank t) | Some l => l end).
    split; [reflexivity|]. split; [reflexivity|]. split; [exact E3|]. split.
    { destruct names as [l|]; [|apply seq_length]. apply andb_true_iff in Hg. apply Nat.eqb_eq. tauto. }
    split; [intros ->; reflexivity|]. split; [intros l ->; reflexivity|]. split.
    - intros m. unfold upd. rewrite E1. destruct (Nat.eqb_spec m (s_nn s)), (Nat.eq_dec m (s_nn s)); congruence.
    - intros e. rewrite E4. reflexivity.
  Qed.

  Lemma fresh_edges_from_inv n mm i k s s' (x : unit) nd :
    s_nodes s n = Some nd -> i + k = length (n_edges nd) ->
    fresh_edges_from n mm i k s = (s', Some x) ->
    (forall m, s_nodes s' m = if Nat.eqb m n then Some (Node (n_t nd) (firstn i (n_edges nd) ++ seq (s_ne s) k) (n_names nd)) else s_nodes s m) /\
    s_nn s' = s_nn s /\ s_ne s' = s_ne s + k /\
    (forall e, s_edges s' e = if Nat.leb (s_ne s) e && Nat.ltb e (s_ne s + k)
                              then Some (Edge n (i + (e - s_ne s)) None false) else s_edges s e).
  Proof.
    revert i s nd. induction k as [|k IH]; intros i s nd Hn Hl H; cbn [fresh_edges_from] in H.
    - injection H as <- _. split; [|repeat split; try lia].
      + intros m. destruct (Nat.eqb_spec m n) as [->|]; [|reflexivity].
        cbn [seq]. rewrite app_nil_r, firstn_all2 by lia. rewrite Hn. destruct nd. reflexivity.
      + intros e. destruct (Nat.leb_spec (s_ne s) e); cbn [andb]; [|reflexivity].
        destruct (Nat.ltb_spec e (s_ne s + 0)); [lia|reflexivity].
    - apply bind_inv in H. destruct H as (e0 & s1 & H1 & H). apply guard_inv in H1. destruct H1 as [_ ->].
      apply bind_inv in H. destruct H as (e1 & s1 & H1 & H). injection H1 as <- <-.
      apply bind_inv in H. destruct H as (u & s1 & H1 & H). apply add_edge_inv in H1.
      destruct H1 as (nd' & E & Hr & Hi & ->). cbn [s_nodes] in E. rewrite Hn in E. injection E as <-.
      apply IH with (nd := Node (n_t nd) (replace_nth i (s_ne s) (n_edges nd)) (n_names nd)) in H.
      + destruct H as (H1 & H2 & H3 & H4). unfold with_node in *. cbn [s_nodes s_edges s_nn s_ne n_t n_edges n_names] in *.
        split; [|repeat split; [exact H2|lia|]].
        * intros m. rewrite H1. unfold upd. destruct (Nat.eqb_spec m n) as [->|Hne].
          -- do 2 f_equal.
             assert (firstn (S i) (replace_nth i (s_ne s) (n_edges nd)) = firstn i (n_edges nd) ++ [s_ne s]) as Ef.
             { clear - Hi. revert Hi. generalize (n_edges nd) as l. generalize (s_ne s) as e.
               induction i as [|i IH]; intros e [|y l] Hi; simpl in Hi; try lia.
               - reflexivity.
               - cbn [replace_nth]. rewrite !firstn_cons. cbn [app]. f_equal. rewrite IH by lia. reflexivity. }
             rewrite Ef, <- app_assoc. reflexivity.
          -- destruct (Nat.eq_dec m n); [contradiction|reflexivity].
        * intros e. rewrite H4. unfold upd.
          destruct (Nat.eq_dec e (s_ne s)) as [->|Hne].
          -- rewrite (proj2 (Nat.leb_nle (S (s_ne s)) (s_ne s))) by lia. cbn [andb].
             rewrite (proj2 (Nat.leb_le (s_ne s) (s_ne s))) by lia.
             rewrite (proj2 (Nat.ltb_lt (s_ne s) (s_ne s + S k))) by lia. cbn [andb].
             do 2 f_equal. lia.
          -- destruct (Nat.leb_spec (S (s_ne s)) e), (Nat.leb_spec (s_ne s) e); try lia; cbn [andb];
               destruct (Nat.ltb_spec e (S (s_ne s) + k)), (Nat.ltb_spec e (s_ne s + S k)); try lia; try reflexivity.
             do 2 f_equal. lia.
      + unfold with_node. cbn. apply upd_same.
      + cbn. rewrite replace_nth_length. lia.
  Qed.

  Lemma fresh_edges_inv n s s' (x : unit) nd :
    s_nodes s n = Some nd ->
    fresh_edges n s = (s', Some x) ->
    (forall m, s_nodes s' m = if Nat.eqb m n then Some (Node (n_t nd) (seq (s_ne s) (length (n_edges nd))) (n_names nd)) else s_nodes s m) /\
    s_nn s' = s_nn s /\ s_ne s' = s_ne s + length (n_edges nd) /\
    (forall e, s_edges s' e = if Nat.leb (s_ne s) e && Nat.ltb e (s_ne s + length (n_edges nd))
                              then Some (Edge n (e - s_ne s) None false) else s_edges s e).
  Proof.
    intros Hn H. unfold fresh_edges in H. apply bind_inv in H. destruct H as (nd' & s1 & H1 & H).
    apply get_node_inv in H1. destruct H1 as [-> H1]. rewrite Hn in H1. injection H1 as <-.
    apply (fresh_edges_from_inv Hn) in H; [exact H|lia].
  Qed.

  (** *** disabling *)
  Lemma disable_all_inv l s s' (x : unit) :
    mfor l (@disable_edge R) s = (s', Some x) ->
    s_nodes s' = s_nodes s /\ s_nn s' = s_nn s /\ s_ne s' = s_ne s /\
    (forall e, s_edges s' e = if mem e l then option_map (fun ed => Edge (e_n1 ed) (e_a1 ed) (e_2 ed) true) (s_edges s e)
                              else s_edges s e).
  Proof.
    revert s. induction l as [|f r IH]; intros s H; cbn [mfor] in H.
    - injection H as <- _. repeat split.
    - apply bind_inv in H. destruct H as (u & s1 & H1 & H). unfold disable_edge in H1.
      destruct (s_edges s f) as [ed|] eqn:Ef; [|discriminate]. injection H1 as <- _.
      apply IH in H. cbn [s_nodes s_edges s_nn s_ne] in H. destruct H as (-> & -> & -> & H). repeat split.
      intros e. rewrite H. unfold upd. cbn [mem existsb]. fold (mem e r).
      destruct (Nat.eq_dec e f) as [->|Hne].
      + rewrite Nat.eqb_refl, Ef. cbn [orb option_map]. destruct (mem f r); reflexivity.
      + destruct (Nat.eqb_spec e f); [contradiction|]. reflexivity.
  Qed.

  (** *** moving edge ends *)
  Definition slot_eqb (p q : nid * nat) : bool := Nat.eqb (snd p) (snd q) && Nat.eqb (fst p) (fst q).
  Lemma slot_eqb_spec p q : reflect (p = q) (slot_eqb p q).
  Proof.
    unfold slot_eqb. destruct p as [a b], q as [c d]. cbn.
    destruct (Nat.eqb_spec b d), (Nat.eqb_spec a c); constructor; congruence.
  Qed.

  Definition app1 (ed : edge) (o n : nid * nat) : edge :=
    if slot_eqb (e_n1 ed, e_a1 ed) o then Edge (fst n) (snd n) (e_2 ed) false
    else match e_2 ed with
         | Some p => if slot_eqb p o then Edge (e_n1 ed) (e_a1 ed) (Some n) false else ed
         | None => ed
         end.

  Lemma app1_fst n1 a1 x ds n : app1 (Edge n1 a1 x ds) (n1, a1) n = Edge (fst n) (snd n) x false.
  Proof. unfold app1. cbn [e_n1 e_a1 e_2]. destruct (slot_eqb_spec (n1, a1) (n1, a1)); [reflexivity|congruence]. Qed.
  Lemma app1_snd n1 a1 p ds n : (n1, a1) <> p -> app1 (Edge n1 a1 (Some p) ds) p n = Edge n1 a1 (Some n) false.
  Proof.
    intros H. unfold app1. cbn [e_n1 e_a1 e_2]. destruct (slot_eqb_spec (n1, a1) p); [congruence|].
    destruct (slot_eqb_spec p p); [reflexivity|congruence].
  Qed.

  Lemma update_axis_inv e o n s s' (x : unit) :
    update_axis e o n s = (s', Some x) ->
    exists ed, s_edges s e = Some ed /\ e_dis ed = false /\ s' = with_edge s e (app1 ed o n).
  Proof.
    unfold update_axis. intros H. apply bind_inv in H. destruct H as (ed & s1 & H1 & H).
    apply get_edge_inv in H1. destruct H1 as (-> & H1 & H2). exists ed. split; [exact H1|]. split; [exact H2|].
    unfold app1, slot_eqb. cbn [fst snd].
    destruct (Nat.eqb (e_a1 ed) (snd o) && Nat.eqb (e_n1 ed) (fst o)).
    - apply set_edge_inv in H. exact H.
    - destruct (e_2 ed) as [[n2 a2]|]; [|discriminate]. cbn [fst snd].
      destruct (Nat.eqb a2 (snd o) && Nat.eqb n2 (fst o)); [|discriminate].
      apply set_edge_inv in H. exact H.
  Qed.

  Lemma update_axis_ok e o n s ed :
    s_edges s e = Some ed -> e_dis ed = false -> In o (ends ed) ->
    update_axis e o n s = (with_edge s e (app1 ed o n), Some tt).
  Proof.
    intros H1 H2 H3. unfold update_axis, bind, get_edge. rewrite H1, H2. unfold app1, slot_eqb. cbn [fst snd].
    unfold ends in H3. cbn [In] in H3. destruct o as [on oa]. cbn [fst snd].
    destruct (Nat.eqb_spec (e_a1 ed) oa), (Nat.eqb_spec (e_n1 ed) on); cbn [andb]; try reflexivity.
    all: destruct H3 as [H3|H3]; [congruence|].
    all: destruct (e_2 ed) as [[n2 a2]|]; [|contradiction]; destruct H3 as [H3|[]]; injection H3 as -> ->.
    all: rewrite !Nat.eqb_refl; reflexivity.
  Qed.

  Definition move := (eid * ((nid * nat) * (nid * nat)))%type.
  Definition steps (mv : list move) : M unit := mfor mv (fun m => update_axis (fst m) (fst (snd m)) (snd (snd m))).

  Definition moves_on (e : eid) (mv : list move) : list ((nid * nat) * (nid * nat)) :=
    map snd (filter (fun m => Nat.eqb (fst m) e) mv).
  Definition app_moves (ml : list ((nid * nat) * (nid * nat))) (ed : edge) : edge :=
    fold_left (fun ed m => app1 ed (fst m) (snd m)) ml ed.

  Lemma steps_inv mv s s' (x : unit) :
    steps mv s = (s', Some x) ->
    s_nodes s' = s_nodes s /\ s_nn s' = s_nn s /\ s_ne s' = s_ne s /\
    (forall e, s_edges s' e = option_map (app_moves (moves_on e mv)) (s_edges s e)).
  Proof.
    revert s. induction mv as [|[f [o n]] r IH]; intros s H; cbn [steps mfor] in H.
    - injection H as <- _. repeat split. intros e. cbn. destruct (s_edges s e); reflexivity.
    - apply bind_inv in H. destruct H as (u & s1 & H1 & H). cbn [fst snd] in H1.
      apply update_axis_inv in H1. destruct H1 as (ed & H1 & H2 & ->).
      apply IH in H. unfold with_edge in H. cbn [s_nodes s_edges s_nn s_ne] in H.
      destruct H as (-> & -> & -> & H). repeat split.
      intros e. rewrite H. unfold moves_on. cbn [filter fst]. unfold upd.
      destruct (Nat.eq_dec e f) as [->|Hne].
      + rewrite Nat.eqb_refl, H1. reflexivity.
      + destruct (Nat.eqb_spec f e); [congruence|]. reflexivity.
  Qed.

  (** the effect on the ends of one edge *)
  Lemma app_moves_ends ed ml (sg : nid * nat -> nid * nat) :
    NoDup (ends ed) -> NoDup (map fst ml) -> NoDup (map snd ml) -> incl (map fst ml) (ends ed) ->
    (forall q, In q (map snd ml) -> In q (ends ed) -> In q (map fst ml)) ->
    (forall m, In m ml -> sg (fst m) = snd m) -> (forall p, In p (ends ed) -> ~ In p (map fst ml) -> sg p = p) ->
    Permutation (ends (app_moves ml ed)) (map sg (ends ed)) /\ (e_dis ed = false -> e_dis (app_moves ml ed) = false).
  Proof.
    intros N1 N2 N3 Hi Hn S1 S2.
    assert (length ml <= 2) as Hl.
    { rewrite <- (map_length fst ml). etransitivity; [apply (NoDup_incl_length N2 Hi)|].
      unfold ends. destruct (e_2 ed); simpl; lia. }
    destruct ml as [|[o n] [|[o2 n2] [|]]]; [| | |simpl in Hl; lia]; cbn [app_moves fold_left fst snd].
    - split; [|auto]. rewrite (map_ext_in sg (fun p => p)) by (intros p Hp; apply S2; [exact Hp|intros []]).
      rewrite map_id. reflexivity.
    - cbn [map fst snd] in *. specialize (S1 (o, n) (or_introl eq_refl)). cbn in S1.
      assert (In o (ends ed)) as Ho by (apply Hi; left; reflexivity).
      assert (forall p, In p (ends ed) -> p <> o -> sg p = p) as S2' by (intros p Hp Hne; apply S2; [exact Hp|intros [K|[]]; congruence]).
      clear S2 Hi Hn N2 N3 Hl.
      unfold app1, ends in *. destruct ed as [n1 a1 [p2|] ds]; cbn [e_n1 e_a1 e_2 e_dis In map] in *.
      + apply NoDup_cons_iff in N1. destruct N1 as [Hx _]. cbn [In] in Hx.
        destruct (slot_eqb_spec (n1, a1) o) as [E|E].
        * subst o. destruct n as [nn na]. cbn [e_n1 e_a1 e_2 fst snd e_dis].
          rewrite S1, (S2' p2) by (auto; intros ->; tauto). split; auto.
        * destruct Ho as [Ho|[Ho|[]]]; [congruence|]. subst p2.
          destruct (slot_eqb_spec o o); [|congruence]. cbn [e_n1 e_a1 e_2 e_dis].
          rewrite S1, (S2' (n1, a1)) by auto. split; auto.
      + destruct Ho as [Ho|[]]. subst o. destruct (slot_eqb_spec (n1, a1) (n1, a1)); [|congruence].
        destruct n. cbn [e_n1 e_a1 e_2 fst snd e_dis]. rewrite S1. split; auto.
    - cbn [map fst snd] in *. pose proof (S1 (o, n) (or_introl eq_refl)) as E1.
      pose proof (S1 (o2, n2) (or_intror (or_introl eq_refl))) as E2. cbn in E1, E2.
      assert (In o (ends ed)) as Ho by (apply Hi; left; reflexivity).
      assert (In o2 (ends ed)) as Ho2 by (apply Hi; right; left; reflexivity).
      assert (o <> o2) as Hne by (apply NoDup_cons_iff in N2; destruct N2 as [Hx _]; intros ->; apply Hx; left; reflexivity).
      clear S1 S2 Hi Hn N2 N3 Hl.
      destruct ed as [n1 a1 [p2|] ds]; unfold ends in N1, Ho, Ho2 |- *; cbn [e_n1 e_a1 e_2 e_dis In map] in *.
      + apply NoDup_cons_iff in N1. destruct N1 as [Hx _]. cbn [In] in Hx.
        assert ((n1, a1) <> p2) as Hx' by (intros K; apply Hx; left; congruence). clear Hx.
        destruct Ho as [Ho|[Ho|[]]]; destruct Ho2 as [Ho2|[Ho2|[]]]; try congruence.
        * subst o o2. rewrite app1_fst, E1, E2. destruct n as [nn na]. cbn [fst snd].
          destruct (slot_eqb_spec (nn, na) p2) as [K|K].
          -- subst p2. rewrite app1_fst. destruct n2. cbn [e_n1 e_a1 e_2 fst snd e_dis]. split; [apply perm_swap|auto].
          -- rewrite app1_snd by exact K. cbn [e_n1 e_a1 e_2 fst snd e_dis]. auto.
        * subst o o2. rewrite app1_snd by exact Hx'. rewrite app1_fst, E1, E2. destruct n2.
          cbn [e_n1 e_a1 e_2 fst snd e_dis]. auto.
      + destruct Ho as [Ho|[]]; destruct Ho2 as [Ho2|[]]; congruence.
  Qed.

  (** ** The renaming lemma *)
  Lemma wfx_rename (X : eid -> Prop) s s' :
    (forall n nd, s_nodes s' n = Some nd -> length (n_edges nd) = rank (n_t nd)) ->
    (forall n nd, s_nodes s' n = Some nd -> n < s_nn s') ->
    (forall e ed, s_edges s' e = Some ed -> e < s_ne s') ->
    (forall p e, slot s' p = Some e ->
       s_edges s' e = Some (Edge (fst p) (snd p) None false)
       \/ exists sg p0 ed ed', slot s p0 = Some e /\ p = sg p0 /\ s_edges s e = Some ed /\ s_edges s' e = Some ed' /\
            (e_dis ed = false -> e_dis ed' = false) /\ Permutation (ends ed') (map sg (ends ed)) /\
            (forall q q', In q (ends ed) -> In q' (ends ed) -> sg q = sg q' -> q = q') /\
            (~ X e -> forall q, In q (ends ed) -> slot s' (sg q) = Some e /\ dimat s' (sg q) = dimat s q)) ->
    wfx X s -> wfx X s'.
  Proof.
    intros H1 H2 H3 H4 W. split; auto. intros p e Hp. destruct (H4 p e Hp) as [H|H].
    - eexists. split; [exact H|]. unfold ends. cbn [e_n1 e_a1 e_2 e_dis]. split; [reflexivity|]. destruct p as [n a]. cbn [fst snd].
      split; [left; reflexivity|]. split; [repeat constructor; intros []|].
      intros _ q [<-|[]]. auto.
    - destruct H as (sg & p0 & ed & ed' & S0 & -> & E1 & E2 & Hd & HP & Hinj & Hs).
      destruct (wf_slot W S0) as (ed0 & G1 & G2 & G3 & G4 & G5). rewrite E1 in G1. injection G1 as <-.
      exists ed'. split; [exact E2|]. split; [auto|]. split.
      + apply (Permutation_in _ (Permutation_sym HP)). apply in_map. exact G3.
      + split.
        * apply (Permutation_NoDup (Permutation_sym HP)). apply NoDup_map_in; assumption.
        * intros HX q Hq. apply (Permutation_in _ HP) in Hq. apply in_map_iff in Hq. destruct Hq as (q0 & <- & Hq0).
          destruct (Hs HX q0 Hq0) as [K1 K2]. split; [exact K1|]. rewrite K2.
          destruct (Hs HX p0 G3) as [_ K3]. rewrite K3. apply G5; assumption.
  Qed.
End GB.
