(** * GraphNames: the graph calls keep one name per axis (at least) on every node *)
From Verif Require Import Prelude Algebra Tensor TensorFacts Einsum EinsumFacts NetworkFacts Graph GraphBase GraphFlatten.
Set Implicit Arguments.
Unset Strict Implicit.

Section GNames.
  Context {R : csr}.
  Notation st := (@st R).
  Notation node := (@node R).
  Implicit Types (s : st) (e : eid).
  Notation "x <- m ;; k" := (bind m (fun x => k)) (at level 61, m at next level, right associativity).
  Notation "m ;;; k" := (bind m (fun _ => k)) (at level 61, right associativity).

  Definition okd (nd : node) : Prop := length (n_edges nd) = rank (n_t nd) /\ length (n_edges nd) <= length (n_names nd).
  Definition okn (n : nid) s : Prop := forall nd, s_nodes s n = Some nd -> okd nd.

  Definition pres (n : nid) {A} (m : @M R A) : Prop := forall s s' r, m s = (s', Some r) -> okn n s -> okn n s'.

  Lemma pres_bind n A B (m : @M R A) (k : A -> @M R B) : pres n m -> (forall x, pres n (k x)) -> pres n (bind m k).
  Proof. intros H K s s' r E L. apply bind_inv in E. destruct E as (x & s1 & E1 & E2). apply (K x _ _ _ E2). apply (H _ _ _ E1 L). Qed.
  Lemma pres_same n A (m : @M R A) : (forall s, s_nodes (fst (m s)) = s_nodes s) -> pres n m.
  Proof. intros H s s' r E L nd K. apply L. rewrite <- H, E. exact K. Qed.
  Lemma pres_ret n A (x : A) : pres n (ret x).
  Proof. apply pres_same. reflexivity. Qed.
  Lemma pres_read n A (f : st -> option A) : pres n (fun s => (s, f s)).
  Proof. apply pres_same. reflexivity. Qed.
  Lemma pres_fail n A : pres n (@fail R A).
  Proof. apply pres_same. reflexivity. Qed.
  Lemma pres_guard n b : pres n (guard b).
  Proof. destruct b; apply pres_same; reflexivity. Qed.
  Lemma pres_set_edge n e x : pres n (set_edge e x).
  Proof. apply pres_same. reflexivity. Qed.
  Lemma pres_alloc_edge n x : pres n (alloc_edge x).
  Proof. apply pres_same. reflexivity. Qed.
  Lemma pres_next n : pres n (@next_node R).
  Proof. apply pres_same. reflexivity. Qed.
  Lemma pres_update_axis n e o q : pres n (update_axis e o q).
  Proof.
    unfold update_axis. apply pres_bind; [apply pres_read|]. intros ed. destruct (_ && _); [apply pres_set_edge|].
    destruct (e_2 ed) as [[? ?]|]; [|apply pres_fail]. destruct (_ && _); [apply pres_set_edge|apply pres_fail].
  Qed.
  Lemma pres_mfor n A (f : A -> @M R unit) l : (forall x, pres n (f x)) -> pres n (mfor l f).
  Proof. intros H. induction l as [|x r IH]; cbn [mfor]; [apply pres_ret|]. apply pres_bind; [apply H|intros _; exact IH]. Qed.
  Lemma pres_disable n e : pres n (disable_edge e).
  Proof. apply pres_same. intros s. unfold disable_edge. destruct (s_edges s e); reflexivity. Qed.

  (** setting a node from the value read before *)
  Lemma okn_set n m (x : node) s : okn n s -> (n = m -> okd x) -> okn n (fst (set_node m x s)).
  Proof. intros H K nd E. unfold set_node in E. cbn [fst s_nodes] in E. unfold upd in E. destruct (Nat.eq_dec n m) as [->|]; [injection E as <-; auto|apply H; exact E]. Qed.
  Lemma pres_get_node n A m (k : node -> @M R A) : (forall nd s s' r, s_nodes s m = Some nd -> k nd s = (s', Some r) -> okn n s -> okn n s') -> pres n (bind (get_node m) k).
  Proof. intros H s s' r E L. apply bind_inv in E. destruct E as (nd & s1 & E1 & E2). apply get_node_inv in E1. destruct E1 as [-> E1]. apply (H nd s s' r E1 E2 L). Qed.

  Lemma pres_add_edge n m e ax ov : pres n (add_edge m e ax ov).
  Proof.
    apply pres_get_node. intros nd s s' r En E L. apply bind_inv in E. destruct E as (u & s1 & H & E). apply guard_inv in H. destruct H as [_ ->].
    destruct (nth_error _ _) as [old|]; [|discriminate E].
    apply bind_inv in E. destruct E as (oe & s1 & H & E). assert (s1 = s) as -> by (injection H as <- _; reflexivity). clear H.
    apply bind_inv in E. destruct E as (u2 & s1' & H & E). apply guard_inv in H. destruct H as [_ ->].
    apply set_node_inv in E. subst s'.
    apply (@okn_set n m (Node (n_t nd) (replace_nth ax e (n_edges nd)) (n_names nd)) s L).
    intros ->. destruct (L nd En) as [A B]. split; cbn [n_edges n_t n_names]; rewrite replace_nth_length; assumption.
  Qed.
  Lemma pres_add_all n m ov : forall es i, pres n (add_all m i es ov).
  Proof. induction es as [|e r IH]; intros i; cbn [add_all]; [apply pres_ret|]. apply pres_bind; [apply pres_add_edge|intros _; apply IH]. Qed.
  Lemma pres_fresh_from n m mm : forall k i, pres n (fresh_edges_from m mm i k).
  Proof.
    induction k as [|k IH]; intros i; cbn [fresh_edges_from]; [apply pres_ret|]. apply pres_bind; [apply pres_guard|]. intros _.
    apply pres_bind; [apply pres_alloc_edge|]. intros e. apply pres_bind; [apply pres_add_edge|]. intros _. apply IH.
  Qed.
  Lemma pres_fresh n m : pres n (fresh_edges m).
  Proof. unfold fresh_edges. apply pres_bind; [apply pres_read|]. intros nd. apply pres_fresh_from. Qed.

  Lemma alloc_edges_nodes m : forall k i s, s_nodes (fst (@alloc_edges R m i k s)) = s_nodes s.
  Proof.
    induction k as [|k IH]; intros i s; cbn [alloc_edges]; [reflexivity|]. unfold bind at 1, alloc_edge. unfold bind.
    match goal with |- context [alloc_edges m (S i) k ?x] => specialize (IH (S i) x); destruct (alloc_edges m (S i) k x) as [s' [r|]] end; cbn [fst] in *; exact IH.
  Qed.
  Lemma alloc_edges_len m : forall k i s s' es, @alloc_edges R m i k s = (s', Some es) -> length es = k.
  Proof. intros k i s s' es H. apply alloc_edges_inv in H. destruct H as [-> _]. apply seq_length. Qed.

  Lemma pres_new_node n t names : pres n (new_node t names).
  Proof.
    intros s s' r E L. unfold new_node in E. apply bind_inv in E. destruct E as (u & s1 & H & E). apply guard_inv in H. destruct H as [Eg ->].
    apply bind_inv in E. destruct E as (m & s1 & H & E). unfold next_node in H. injection H as -> <-.
    apply bind_inv in E. destruct E as (es & s2 & Ea & E). pose proof (alloc_edges_nodes (s_nn s1) (rank t) 0 s1) as N. rewrite Ea in N. cbn [fst] in N.
    unfold alloc_node in E. injection E as <- _. intros nd K. cbn [s_nodes] in K. unfold upd in K. destruct (Nat.eq_dec n (s_nn s2)) as [->|Hne].
    - injection K as <-. unfold okd. cbn [n_edges n_t n_names]. rewrite (alloc_edges_len Ea). split; [reflexivity|].
      destruct names as [l|]; [|rewrite seq_length; lia]. apply andb_true_iff in Eg. destruct Eg as [_ Eg]. apply Nat.eqb_eq in Eg. lia.
    - apply L. rewrite <- N. exact K.
  Qed.

  Lemma pres_move_kept n cut old new : forall es i k, pres n (@move_kept R cut old new i k es).
  Proof.
    induction es as [|e r IH]; intros i k; cbn [move_kept]; [apply pres_ret|]. destruct (mem e cut); [apply IH|].
    apply pres_bind; [apply pres_update_axis|]. intros _. apply pres_bind; [apply IH|]. intros x. apply pres_ret.
  Qed.
  Lemma pres_move_all n old new off : forall es i, pres n (@move_all R old new i off es).
  Proof. induction es as [|e r IH]; intros i; cbn [move_all]; [apply pres_ret|]. apply pres_bind; [apply pres_update_axis|]. intros _. apply IH. Qed.
  Lemma pres_check_cut n n1 n2 cut : pres n (@check_cut R cut n1 n2).
  Proof. induction cut as [|e r IH]; cbn [check_cut]; [apply pres_ret|]. apply pres_bind; [apply pres_read|]. intros ed. apply pres_bind; [apply pres_guard|]. intros _. apply IH. Qed.
  Lemma pres_remove_edges n cut n1 n2 new : pres n (@remove_edges R cut n1 n2 new).
  Proof.
    unfold remove_edges. apply pres_bind; [apply pres_guard|]. intros _. apply pres_bind; [apply pres_read|]. intros d1. apply pres_bind; [apply pres_read|]. intros d2.
    apply pres_bind; [apply pres_check_cut|]. intros _. apply pres_bind; [apply pres_move_kept|]. intros k1. apply pres_bind; [apply pres_move_kept|]. intros k2.
    apply pres_bind; [apply pres_add_all|]. intros _. apply pres_bind; [apply pres_fresh|]. intros _. apply pres_bind; [apply pres_fresh|]. intros _.
    apply pres_mfor. intros e. apply pres_disable.
  Qed.
  Lemma pres_shift n e m new x y : pres n (@shift_edge R e m new x y).
  Proof. unfold shift_edge. apply pres_bind; [apply pres_read|]. intros ed. apply pres_set_edge. Qed.
  Lemma pres_contract_trace n e : pres n (@contract_trace R e).
  Proof.
    unfold contract_trace. apply pres_bind; [apply pres_read|]. intros ed. destruct (e_2 ed) as [[n2 a2]|]; [|apply pres_fail].
    apply pres_bind; [apply pres_guard|]. intros _. apply pres_bind; [apply pres_read|]. intros nd. cbv zeta.
    apply pres_bind; [apply pres_new_node|]. intros N. apply pres_bind; [|intros _; apply pres_ret].
    unfold remove_trace_edge. apply pres_bind; [apply pres_read|]. intros ed'. destruct (e_2 ed') as [[n2' a2']|]; [|apply pres_fail].
    apply pres_bind; [apply pres_guard|]. intros _. apply pres_bind; [apply pres_read|]. intros nd'. cbv zeta.
    apply pres_bind; [apply pres_mfor; intros f; apply pres_shift|]. intros _. apply pres_bind; [apply pres_add_all|]. intros _.
    apply pres_bind; [apply pres_fresh|]. intros _. apply pres_disable.
  Qed.
  Lemma pres_contract n e names : pres n (@contract R e names).
  Proof.
    unfold contract. apply pres_bind; [apply pres_read|]. intros ed. destruct (e_2 ed) as [[n2 a2]|]; [|apply pres_fail].
    destruct (Nat.eqb _ _); [apply pres_contract_trace|]. apply pres_bind; [apply pres_read|]. intros d1. apply pres_bind; [apply pres_read|]. intros d2.
    apply pres_bind; [apply pres_new_node|]. intros N. apply pres_bind; [apply pres_remove_edges|]. intros _. apply pres_ret.
  Qed.
  Lemma pres_outer n n1 n2 names : pres n (@outer_product R n1 n2 names).
  Proof.
    unfold outer_product. apply pres_bind; [apply pres_read|]. intros d1. apply pres_bind; [apply pres_read|]. intros d2.
    apply pres_bind; [apply pres_new_node|]. intros N. apply pres_bind; [apply pres_move_all|]. intros _. apply pres_bind; [apply pres_move_all|]. intros _.
    apply pres_bind; [apply pres_add_all|]. intros _. apply pres_bind; [apply pres_fresh|]. intros _. apply pres_bind; [apply pres_fresh|]. intros _. apply pres_ret.
  Qed.

  (** *** reordering *)
  Lemma pres_reorder_loop n m es : forall perm i, pres n (@reorder_loop R m es i perm).
  Proof.
    induction perm as [|p r IH]; intros i; cbn [reorder_loop]; [apply pres_ret|]. destruct (nth_error es p) as [e|]; [|apply pres_fail].
    apply pres_bind; [apply pres_update_axis|]. intros _. apply IH.
  Qed.
  Lemma okn_finish n m t es names perm s s' r : okn n s -> (n = m -> length es = rank t /\ length es <= length perm) ->
    finish_reorder m t es names perm s = (s', Some r) -> okn n s'.
  Proof.
    intros L H E nd K. unfold finish_reorder in E. apply bind_inv in E. destruct E as (u & s1 & H1 & E). apply set_node_inv in H1. subst s1.
    apply bind_inv in E. destruct E as (u2 & s1 & H1 & E). apply guard_inv in H1. destruct H1 as [_ ->]. apply set_node_inv in E. subst s'.
    unfold with_node in K; cbn [s_nodes] in K. unfold upd in K. destruct (Nat.eq_dec n m) as [Hn|Hne]; [|apply L; exact K].
    injection K as <-. destruct (H Hn) as [A B]. split; cbn [n_t n_edges n_names]; [exact A|]. rewrite gather_length. exact B.
  Qed.
  Lemma pres_reorder_axes n m perm : pres n (@reorder_axes R m perm).
  Proof.
    unfold reorder_axes. apply pres_get_node. intros nd s s' r En E L. apply bind_inv in E. destruct E as (u & s1 & H & E). apply guard_inv in H. destruct H as [Eg ->].
    apply bind_inv in E. destruct E as (u2 & s1 & H & E). pose proof (pres_reorder_loop H L) as L1.
    apply (okn_finish L1) in E; [exact E|]. intros ->. rewrite gather_length. unfold rank. cbn [shape transpose]. rewrite gather_length. lia.
  Qed.
  Lemma pres_check_no_trace n : forall es, pres n (@check_no_trace R es).
  Proof. induction es as [|e r IH]; cbn [check_no_trace]; [apply pres_ret|]. apply pres_bind; [apply pres_read|]. intros ed. apply pres_bind; [apply pres_guard|]. intros _. exact IH. Qed.
  (** *** flattening *)
  Lemma pres_connect n e1 e2 : pres n (@connect R e1 e2).
  Proof.
    unfold connect. apply pres_bind; [apply pres_read|]. intros d1. apply pres_bind; [apply pres_read|]. intros d2.
    apply pres_bind; [apply pres_guard|]. intros _. apply pres_bind; [apply pres_guard|]. intros _.
    assert (forall e, pres n (@edge_dim R e)) as He.
    { intros e. unfold edge_dim. apply pres_bind; [apply pres_read|]. intros ed. apply pres_bind; [apply pres_read|]. intros nd. destruct (nth_error _ _); [apply pres_ret|apply pres_fail]. }
    apply pres_bind; [apply He|]. intros m1. apply pres_bind; [apply He|]. intros m2. apply pres_bind; [apply pres_guard|]. intros _.
    apply pres_bind; [apply pres_alloc_edge|]. intros e. apply pres_bind; [apply pres_add_edge|]. intros _. apply pres_bind; [apply pres_add_edge|]. intros _. apply pres_ret.
  Qed.
  Lemma reorder_axes_node m perm s s' (x : unit) : reorder_axes m perm s = (s', Some x) ->
    exists nd, s_nodes s m = Some nd /\ length perm = length (n_edges nd) /\
      s_nodes s' m = Some (Node (transpose (n_t nd) perm) (gather 0 (n_edges nd) perm) (gather 0 (n_names nd) perm)).
  Proof.
    intros E. unfold reorder_axes in E. apply bind_inv in E. destruct E as (nd & s1 & H & E). apply get_node_inv in H. destruct H as [-> Hn].
    apply bind_inv in E. destruct E as (u & s1 & H & E). apply guard_inv in H. destruct H as [Hg ->]. apply andb_true_iff in Hg. destruct Hg as [Hg _].
    apply is_permb_spec in Hg. apply is_perm_length in Hg. apply bind_inv in E. destruct E as (u2 & s1 & H & E).
    exists nd. split; [exact Hn|]. split; [exact Hg|]. unfold finish_reorder in E. apply bind_inv in E. destruct E as (u3 & s2 & _ & E).
    apply bind_inv in E. destruct E as (u4 & s3 & H3 & E). apply guard_inv in H3. destruct H3 as [_ ->]. apply set_node_inv in E. rewrite E. cbn. apply upd_same.
  Qed.
  Lemma pres_reorder_edges n m order : pres n (@reorder_edges R m order).
  Proof.
    unfold reorder_edges. apply pres_get_node. intros nd s s' r En E L. apply bind_inv in E. destruct E as (u & s1 & H & E). apply guard_inv in H. destruct H as [_ ->].
    apply bind_inv in E. destruct E as (u2 & s1 & H & E). apply guard_inv in H. destruct H as [_ ->].
    apply bind_inv in E. destruct E as (u3 & s1 & H & E). pose proof (pres_check_no_trace H L) as L1. clear L H.
    apply bind_inv in E. destruct E as (u4 & s2 & H & E). pose proof (pres_reorder_loop H L1) as L2. clear L1 H.
    apply bind_inv in E. destruct E as (u5 & s3 & H & E). apply guard_inv in H. destruct H as [_ ->].
    apply (okn_finish L2) in E; [exact E|]. intros ->. unfold rank. cbn [shape transpose]. rewrite gather_length, map_length. lia.
  Qed.
  Lemma pres_flatten_node n m es : pres n (@flatten_node R m es).
  Proof.
    unfold flatten_node. apply pres_get_node. intros nd s s' r En E L. apply bind_inv in E. destruct E as (u & s1 & H & E). apply guard_inv in H. destruct H as [_ ->].
    cbv zeta in E. set (bk := map _ es) in *. set (fr := free_axes (length (n_edges nd)) bk) in *.
    apply bind_inv in E. destruct E as (u2 & s1 & H & E). pose proof (pres_reorder_axes H L) as L1. apply reorder_axes_node in H. destruct H as (nd0 & K & Lp & H1).
    apply bind_inv in E. destruct E as (nd' & s2 & H & E). apply get_node_inv in H. destruct H as [-> H]. rewrite H1 in H. injection H as <-. cbn [n_t n_edges n_names] in E.
    apply bind_inv in E. destruct E as (e & s2 & H & E). pose proof (pres_alloc_edge H L1) as L2. clear H.
    apply bind_inv in E. destruct E as (u3 & s3 & H & E). apply set_node_inv in H. subst s3.
    apply bind_inv in E. destruct E as (u4 & s3 & H & E). apply guard_inv in H. destruct H as [Hl ->]. apply Nat.leb_le in Hl.
    apply bind_inv in E. destruct E as (u5 & s3 & H & E). apply set_node_inv in H. subst s3. injection E as <- _.
    intros d K2. unfold with_node in K2; cbn [s_nodes] in K2. unfold upd in K2. destruct (Nat.eq_dec n m) as [->|Hne]; [|apply L2; exact K2]. injection K2 as <-.
    unfold okd, rank. cbn [n_edges n_t n_names shape reshape transpose]. assert (length (firstn (S (length fr)) (n_names nd)) = S (length fr)) as Hf by (rewrite firstn_length; lia).
    cbn [firstn] in Hf |- *. rewrite !app_length, !firstn_length, !gather_length, app_length. cbn [length]. lia.
  Qed.
  Lemma pres_trace_pairs n : forall l, pres n (@trace_pairs R l).
  Proof.
    induction l as [|e r IH]; cbn [trace_pairs]; [apply pres_ret|]. apply pres_bind; [apply pres_read|]. intros ed. destruct (e_2 ed) as [[? ?]|]; [|apply pres_fail].
    apply pres_bind; [exact IH|]. intros ps. apply pres_ret.
  Qed.
  Lemma pres_flatten_trace n es : pres n (@flatten_trace_edges R es).
  Proof.
    destruct es as [|e0 er] eqn:Ees; [apply pres_fail|]. rewrite (flatten_trace_eq eq_refl). apply pres_bind; [apply pres_read|]. intros ed0. rewrite <- Ees.
    assert (1 <= length es) as Hes by (rewrite Ees; cbn; lia). clear Ees e0 er.
    unfold flatten_trace_body. generalize (e_n1 ed0). intros m. clear ed0.
    apply pres_get_node. intros nd s s' r En E L. apply bind_inv in E. destruct E as (ps & s1 & H & E).
    pose proof (trace_pairs_inv H) as [-> Eps]. assert (1 <= length ps) as Hps by (rewrite Eps, map_length; exact Hes). clear H Eps.
    cbv zeta in E. set (bk := map fst ps ++ map snd ps) in *. assert (2 <= length bk) as Hbk by (unfold bk; rewrite app_length, !map_length; lia).
    set (fr := free_axes (length (n_edges nd)) bk) in *.
    apply bind_inv in E. destruct E as (u2 & s1 & H & E). pose proof (pres_reorder_axes H L) as L1. apply reorder_axes_node in H. destruct H as (nd0 & K & Lp & H1).
    apply bind_inv in E. destruct E as (nd' & s2 & H & E). apply get_node_inv in H. destruct H as [-> H]. rewrite H1 in H. injection H as <-. cbn [n_t n_edges n_names] in E.
    apply bind_inv in E. destruct E as (e1 & s2 & H & E). pose proof (pres_alloc_edge H L1) as L2. clear H.
    apply bind_inv in E. destruct E as (e2 & s3 & H & E). pose proof (pres_alloc_edge H L2) as L3. clear H.
    apply bind_inv in E. destruct E as (u3 & s4 & H & E). apply set_node_inv in H.
    assert (okn n s4) as L4.
    { subst s4. intros d K2. unfold with_node in K2; cbn [s_nodes] in K2. unfold upd in K2. destruct (Nat.eq_dec n m) as [->|Hne]; [|apply L3; exact K2]. injection K2 as <-.
      unfold okd, rank. cbn [n_edges n_t n_names shape reshape transpose]. rewrite !app_length, !firstn_length, !gather_length, app_length. cbn [length]. lia. }
    clear H. revert E L4. clear. revert s4 s' r. apply pres_bind; [apply pres_connect|]. intros f. apply pres_bind; [apply pres_mfor; intros c; apply pres_disable|]. intros _. apply pres_ret.
  Qed.
  Lemma pres_check_same n p q : forall es, pres n (@check_same_nodes R p q es).
  Proof. induction es as [|e r IH]; cbn [check_same_nodes]; [apply pres_ret|]. apply pres_bind; [apply pres_read|]. intros ed. apply pres_bind; [apply pres_guard|]. intros _. exact IH. Qed.
  Lemma pres_flatten_edges iter n es : pres n (@flatten_edges R iter es).
  Proof.
    assert (forall l, pres n (mfor l (@disable_edge R))) as Hd by (intros l; apply pres_mfor; intros c; apply pres_disable).
    destruct es as [|e0 [|e1 r]]; cbn [flatten_edges]; [apply pres_fail|apply pres_bind; [apply pres_read|]; intros _; apply pres_ret|].
    apply pres_bind; [apply pres_read|]. intros ed0. destruct (e_2 ed0) as [[q b]|].
    - apply pres_bind; [apply pres_check_same|]. intros _. destruct (Nat.eqb _ q); [apply pres_flatten_trace|].
      destruct (iter [e_n1 ed0; q]) as [|u [|v [|? ?]]]; try apply pres_fail.
      apply pres_bind; [apply pres_flatten_node|]. intros f1. apply pres_bind; [apply pres_flatten_node|]. intros f2. apply pres_bind; [apply Hd|]. intros _. apply pres_connect.
    - apply pres_bind; [apply pres_check_same|]. intros _. apply pres_bind; [apply pres_flatten_node|]. intros f. apply pres_bind; [apply Hd|]. intros _. apply pres_ret.
  Qed.

  Lemma pres_classify n n1 n2 sh : forall order i, pres n (@classify R n1 n2 sh i order).
  Proof.
    induction order as [|e r IH]; intros i; cbn [classify]; [apply pres_ret|]. apply pres_bind; [apply pres_guard|]. intros _. apply pres_bind; [apply pres_read|]. intros ed. cbv zeta.
    destruct (mem n1 _); [apply pres_bind; [apply IH|intros x; apply pres_ret]|]. destruct (mem n2 _); [apply pres_bind; [apply IH|intros x; apply pres_ret]|apply pres_fail].
  Qed.
  Lemma pres_between iter n n1 n2 al order names : pres n (@contract_between R iter n1 n2 al order names).
  Proof.
    unfold contract_between. apply pres_bind; [apply pres_read|]. intros d1. apply pres_bind; [apply pres_read|]. intros d2.
    apply pres_bind; [apply pres_bind; [apply pres_read|]; intros x; apply pres_read|]. intros shared.
    apply pres_bind.
    - destruct (Nat.eqb n1 n2).
      + destruct shared as [|c r]; [apply pres_fail|]. apply pres_bind; [apply pres_flatten_edges|]. intros e. apply pres_contract.
      + destruct shared as [|c r]; [apply pres_bind; [apply pres_guard|]; intros _; apply pres_outer|].
        apply pres_bind; [apply pres_read|]. intros axes. apply pres_bind.
        * destruct order as [|o r']; [apply pres_ret|]. apply pres_bind; [apply pres_classify|]. intros x. apply pres_ret.
        * intros swap. cbv zeta. apply pres_bind; [apply pres_new_node|]. intros N. apply pres_bind; [apply pres_remove_edges|]. intros _. apply pres_ret.
    - intros N. apply pres_bind; [destruct order; [apply pres_ret|apply pres_reorder_edges]|]. intros _. apply pres_bind; [|intros _; apply pres_ret].
      destruct names as [l|]; [|apply pres_ret]. apply pres_get_node. intros nd s s' r En E L. apply bind_inv in E. destruct E as (u & s1 & H & E). apply guard_inv in H. destruct H as [Hg ->].
      apply set_node_inv in E. subst s'. intros d K2. unfold with_node in K2; cbn [s_nodes] in K2. unfold upd in K2. destruct (Nat.eq_dec n N) as [->|]; [|apply L; exact K2]. injection K2 as <-.
      destruct (L nd En) as [A B]. apply andb_true_iff in Hg. destruct Hg as [_ Hg]. apply Nat.eqb_eq in Hg. split; cbn [n_t n_edges n_names]; lia.
  Qed.
  Lemma pres_parallel iter n e : pres n (@contract_parallel R iter e).
  Proof. unfold contract_parallel. apply pres_bind; [apply pres_read|]. intros ed. destruct (e_2 ed) as [[? ?]|]; [apply pres_between|apply pres_fail]. Qed.
End GNames.
