(** * GraphDead: disabled edges stay disabled; contracting the trace edges of a node disables all of them *)
From Verif Require Import Prelude Algebra Tensor TensorFacts Einsum EinsumFacts NetworkFacts Graph GraphBase GraphContract GraphOps GraphFlatten GraphNames.
Set Implicit Arguments.
Unset Strict Implicit.

Section GDead.
  Context {R : csr}.
  Notation st := (@st R).
  Notation node := (@node R).
  Implicit Types (s : st) (e : eid).
  Notation "x <- m ;; k" := (bind m (fun x => k)) (at level 61, m at next level, right associativity).
  Notation "m ;;; k" := (bind m (fun _ => k)) (at level 61, right associativity).

  Definition dead s e : Prop := e < s_ne s /\ exists ed, s_edges s e = Some ed /\ e_dis ed = true.
  Definition kd {A} (m : @M R A) : Prop := forall s s' r, m s = (s', Some r) -> s_ne s <= s_ne s' /\ forall e, dead s e -> dead s' e.

  Lemma kd_bind A B (m : @M R A) (k : A -> @M R B) : kd m -> (forall x, kd (k x)) -> kd (bind m k).
  Proof.
    intros H K s s' r E. apply bind_inv in E. destruct E as (x & s1 & E1 & E2). destruct (H _ _ _ E1) as [A1 B1]. destruct (K x _ _ _ E2) as [A2 B2].
    split; [lia|auto].
  Qed.
  Lemma kd_same A (m : @M R A) : (forall s, s_edges (fst (m s)) = s_edges s /\ s_ne (fst (m s)) = s_ne s) -> kd m.
  Proof. intros H s s' r E. specialize (H s). rewrite E in H. cbn [fst] in H. destruct H as [H1 H2]. unfold dead. rewrite H1, H2. split; auto. Qed.
  Lemma kd_ret A (x : A) : kd (ret x).
  Proof. apply kd_same. split; reflexivity. Qed.
  Lemma kd_read A (f : st -> option A) : kd (fun s => (s, f s)).
  Proof. apply kd_same. split; reflexivity. Qed.
  Lemma kd_fail A : kd (@fail R A).
  Proof. apply kd_same. split; reflexivity. Qed.
  Lemma kd_guard b : kd (guard b).
  Proof. destruct b; apply kd_same; split; reflexivity. Qed.
  Lemma kd_set_node n x : kd (set_node n x).
  Proof. apply kd_same. split; reflexivity. Qed.
  Lemma kd_next : kd (@next_node R).
  Proof. apply kd_same. split; reflexivity. Qed.
  Lemma kd_alloc_node x : kd (@alloc_node R x).
  Proof. apply kd_same. split; reflexivity. Qed.
  Lemma kd_alloc_edge x : kd (alloc_edge x).
  Proof.
    intros s s' r E. unfold alloc_edge in E. injection E as <- <-. split; [cbn; lia|]. intros e (L & ed & H1 & H2). split; [cbn; lia|]. exists ed. split; [|exact H2].
    cbn. unfold upd. destruct (Nat.eq_dec e (s_ne s)); [lia|exact H1].
  Qed.
  (** a changed edge was not disabled *)
  Lemma kd_get_set e (f : edge -> edge) : kd (ed <- get_edge e ;; set_edge e (f ed)).
  Proof.
    intros s s' r E. apply bind_inv in E. destruct E as (ed & s1 & H & E). apply get_edge_inv in H. destruct H as (-> & H1 & H2).
    unfold set_edge in E. injection E as <- <-. split; [cbn; lia|]. intros x (L & xd & K1 & K2). split; [exact L|]. exists xd. split; [|exact K2].
    cbn. unfold upd. destruct (Nat.eq_dec x e) as [->|]; [congruence|exact K1].
  Qed.
  Lemma kd_update_axis e o q : kd (update_axis e o q).
  Proof.
    intros s s' r E. unfold update_axis in E. apply bind_inv in E. destruct E as (ed & s1 & H & E). pose proof H as H0. apply get_edge_inv in H. destruct H as (-> & H1 & H2).
    assert (forall x, set_edge e x s = (s', Some r) -> s_ne s <= s_ne s' /\ forall e0, dead s e0 -> dead s' e0) as K.
    { intros x E'. apply (@kd_get_set e (fun _ => x) s s' r). unfold bind. rewrite H0. exact E'. }
    destruct (_ && _); [apply (K _ E)|]. destruct (e_2 ed) as [[? ?]|]; [|discriminate E]. destruct (_ && _); [apply (K _ E)|discriminate E].
  Qed.
  Lemma kd_mfor A (f : A -> @M R unit) l : (forall x, kd (f x)) -> kd (mfor l f).
  Proof. intros H. induction l as [|x r IH]; cbn [mfor]; [apply kd_ret|]. apply kd_bind; [apply H|intros _; exact IH]. Qed.
  Lemma kd_disable e : kd (disable_edge e).
  Proof.
    intros s s' r E. unfold disable_edge in E. destruct (s_edges s e) as [ed|] eqn:He; [|discriminate E]. injection E as <- <-. split; [cbn; lia|].
    intros x (L & xd & K1 & K2). split; [exact L|]. cbn. unfold upd. destruct (Nat.eq_dec x e) as [->|]; [eexists; split; reflexivity|eauto].
  Qed.
  Lemma disable_dead e s s' r : disable_edge e s = (s', Some r) -> e < s_ne s -> dead s' e.
  Proof.
    intros E L. unfold disable_edge in E. destruct (s_edges s e) as [ed|] eqn:He; [|discriminate E]. injection E as <- <-. split; [exact L|]. cbn.
    rewrite upd_same. eexists; split; reflexivity.
  Qed.
  Lemma disable_all_dead l : forall s s' r, mfor l (@disable_edge R) s = (s', Some r) -> (forall e, In e l -> e < s_ne s) -> forall e, In e l -> dead s' e.
  Proof.
    induction l as [|x l IH]; intros s s' r E L e He; [destruct He|]. cbn [mfor] in E. apply bind_inv in E. destruct E as (u & s1 & E1 & E2).
    destruct (kd_disable E1) as [N1 _]. pose proof (kd_mfor (l := l) kd_disable E2) as [_ K]. destruct He as [<-|He].
    - apply K. apply (disable_dead E1). apply L. left; reflexivity.
    - apply (IH _ _ _ E2); [|exact He]. intros y Hy. pose proof (L y (or_intror Hy)). lia.
  Qed.

  Lemma kd_add_edge m e ax ov : kd (add_edge m e ax ov).
  Proof.
    unfold add_edge. apply kd_bind; [apply kd_read|]. intros nd. apply kd_bind; [apply kd_guard|]. intros _. destruct (nth_error _ _) as [old|]; [|apply kd_fail].
    apply kd_bind; [apply kd_read|]. intros oe. apply kd_bind; [apply kd_guard|]. intros _. apply kd_set_node.
  Qed.
  Lemma kd_add_all m ov : forall es i, kd (add_all m i es ov).
  Proof. induction es as [|e r IH]; intros i; cbn [add_all]; [apply kd_ret|]. apply kd_bind; [apply kd_add_edge|intros _; apply IH]. Qed.
  Lemma kd_fresh_from m mm : forall k i, kd (fresh_edges_from m mm i k).
  Proof.
    induction k as [|k IH]; intros i; cbn [fresh_edges_from]; [apply kd_ret|]. apply kd_bind; [apply kd_guard|]. intros _.
    apply kd_bind; [apply kd_alloc_edge|]. intros e. apply kd_bind; [apply kd_add_edge|]. intros _. apply IH.
  Qed.
  Lemma kd_fresh m : kd (fresh_edges m).
  Proof. unfold fresh_edges. apply kd_bind; [apply kd_read|]. intros nd. apply kd_fresh_from. Qed.
  Lemma kd_alloc_edges m : forall k i, kd (@alloc_edges R m i k).
  Proof. induction k as [|k IH]; intros i; cbn [alloc_edges]; [apply kd_ret|]. apply kd_bind; [apply kd_alloc_edge|]. intros e. apply kd_bind; [apply IH|]. intros es. apply kd_ret. Qed.
  Lemma kd_new_node t names : kd (new_node t names).
  Proof.
    unfold new_node. apply kd_bind; [apply kd_guard|]. intros _. apply kd_bind; [apply kd_next|]. intros m. apply kd_bind; [apply kd_alloc_edges|]. intros es. apply kd_alloc_node.
  Qed.
  Lemma kd_move_kept cut old new : forall es i k, kd (@move_kept R cut old new i k es).
  Proof.
    induction es as [|e r IH]; intros i k; cbn [move_kept]; [apply kd_ret|]. destruct (mem e cut); [apply IH|].
    apply kd_bind; [apply kd_update_axis|]. intros _. apply kd_bind; [apply IH|]. intros x. apply kd_ret.
  Qed.
  Lemma kd_move_all old new off : forall es i, kd (@move_all R old new i off es).
  Proof. induction es as [|e r IH]; intros i; cbn [move_all]; [apply kd_ret|]. apply kd_bind; [apply kd_update_axis|]. intros _. apply IH. Qed.
  Lemma kd_check_cut n1 n2 cut : kd (@check_cut R cut n1 n2).
  Proof. induction cut as [|e r IH]; cbn [check_cut]; [apply kd_ret|]. apply kd_bind; [apply kd_read|]. intros ed. apply kd_bind; [apply kd_guard|]. intros _. apply IH. Qed.
  Lemma kd_remove_edges cut n1 n2 new : kd (@remove_edges R cut n1 n2 new).
  Proof.
    unfold remove_edges. apply kd_bind; [apply kd_guard|]. intros _. apply kd_bind; [apply kd_read|]. intros d1. apply kd_bind; [apply kd_read|]. intros d2.
    apply kd_bind; [apply kd_check_cut|]. intros _. apply kd_bind; [apply kd_move_kept|]. intros k1. apply kd_bind; [apply kd_move_kept|]. intros k2.
    apply kd_bind; [apply kd_add_all|]. intros _. apply kd_bind; [apply kd_fresh|]. intros _. apply kd_bind; [apply kd_fresh|]. intros _.
    apply kd_mfor. intros e. apply kd_disable.
  Qed.
  Lemma kd_shift e m new x y : kd (@shift_edge R e m new x y).
  Proof. unfold shift_edge. apply kd_get_set. Qed.

  Lemma contract_trace_dead e s s' N : contract_trace e s = (s', Some N) -> e < s_ne s -> dead s' e /\ s_ne s <= s_ne s' /\ forall f, dead s f -> dead s' f.
  Proof.
    intros E L. unfold contract_trace in E. apply bind_inv in E. destruct E as (ed & s1 & H & E). apply get_edge_inv in H. destruct H as (-> & _ & _).
    destruct (e_2 ed) as [[n2 a2]|]; [|discriminate E]. apply bind_inv in E. destruct E as (u & s1 & H & E). apply guard_inv in H. destruct H as [_ ->].
    apply bind_inv in E. destruct E as (nd & s1 & H & E). apply get_node_inv in H. destruct H as [-> _]. cbv zeta in E.
    apply bind_inv in E. destruct E as (new & s1 & H1 & E). destruct (kd_new_node H1) as [L1 K1].
    apply bind_inv in E. destruct E as (u2 & s2 & H2 & E). injection E as <- <-.
    unfold remove_trace_edge in H2. apply bind_inv in H2. destruct H2 as (ed' & s3 & H & E). apply get_edge_inv in H. destruct H as (-> & _ & _).
    destruct (e_2 ed') as [[n2' a2']|]; [|discriminate E]. apply bind_inv in E. destruct E as (u3 & s4 & H & E). apply guard_inv in H. destruct H as [_ ->].
    apply bind_inv in E. destruct E as (nd' & s4 & H & E). apply get_node_inv in H. destruct H as [-> _]. cbv zeta in E.
    apply bind_inv in E. destruct E as (u4 & s4 & H4 & E). match type of H4 with mfor ?l ?f _ = _ => destruct (@kd_mfor _ f l (fun x => @kd_shift x _ _ _ _) _ _ _ H4) as [L4 K4] end.
    apply bind_inv in E. destruct E as (u5 & s5 & H5 & E). destruct (kd_add_all H5) as [L5 K5].
    apply bind_inv in E. destruct E as (u6 & s6 & H6 & E). destruct (kd_fresh H6) as [L6 K6]. destruct (kd_disable E) as [L7 K7].
    split; [apply (disable_dead E); lia|]. split; [lia|auto 10].
  Qed.

  Lemma kd_reorder_loop m es : forall perm i, kd (@reorder_loop R m es i perm).
  Proof.
    induction perm as [|p r IH]; intros i; cbn [reorder_loop]; [apply kd_ret|]. destruct (nth_error es p) as [e|]; [|apply kd_fail].
    apply kd_bind; [apply kd_update_axis|]. intros _. apply IH.
  Qed.
  Lemma kd_finish m t es names perm : kd (@finish_reorder R m t es names perm).
  Proof. unfold finish_reorder. apply kd_bind; [apply kd_set_node|]. intros _. apply kd_bind; [apply kd_guard|]. intros _. apply kd_set_node. Qed.
  Lemma kd_reorder_axes m perm : kd (@reorder_axes R m perm).
  Proof. unfold reorder_axes. apply kd_bind; [apply kd_read|]. intros nd. apply kd_bind; [apply kd_guard|]. intros _. apply kd_bind; [apply kd_reorder_loop|]. intros _. apply kd_finish. Qed.
  Lemma kd_check_no_trace : forall es, kd (@check_no_trace R es).
  Proof. induction es as [|e r IH]; cbn [check_no_trace]; [apply kd_ret|]. apply kd_bind; [apply kd_read|]. intros ed. apply kd_bind; [apply kd_guard|]. intros _. exact IH. Qed.
  Lemma kd_reorder_edges m order : kd (@reorder_edges R m order).
  Proof.
    unfold reorder_edges. apply kd_bind; [apply kd_read|]. intros nd. apply kd_bind; [apply kd_guard|]. intros _. apply kd_bind; [apply kd_guard|]. intros _.
    apply kd_bind; [apply kd_check_no_trace|]. intros _. apply kd_bind; [apply kd_reorder_loop|]. intros _. apply kd_bind; [apply kd_guard|]. intros _. apply kd_finish.
  Qed.
  Lemma kd_edge_dim e : kd (@edge_dim R e).
  Proof. unfold edge_dim. apply kd_bind; [apply kd_read|]. intros ed. apply kd_bind; [apply kd_read|]. intros nd. destruct (nth_error _ _); [apply kd_ret|apply kd_fail]. Qed.
  Lemma kd_connect e1 e2 : kd (@connect R e1 e2).
  Proof.
    unfold connect. apply kd_bind; [apply kd_read|]. intros d1. apply kd_bind; [apply kd_read|]. intros d2.
    apply kd_bind; [apply kd_guard|]. intros _. apply kd_bind; [apply kd_guard|]. intros _.
    apply kd_bind; [apply kd_edge_dim|]. intros m1. apply kd_bind; [apply kd_edge_dim|]. intros m2. apply kd_bind; [apply kd_guard|]. intros _.
    apply kd_bind; [apply kd_alloc_edge|]. intros e. apply kd_bind; [apply kd_add_edge|]. intros _. apply kd_bind; [apply kd_add_edge|]. intros _. apply kd_ret.
  Qed.

  Lemma flatten_trace_dead es s s' e : flatten_trace_edges es s = (s', Some e) -> (forall f, In f es -> f < s_ne s) ->
    (forall f, In f es -> dead s' f) /\ s_ne s <= s_ne s' /\ e < s_ne s' /\ forall f, dead s f -> dead s' f.
  Proof.
    intros E L. destruct es as [|e0 er]; [discriminate E|]. rewrite (flatten_trace_eq eq_refl) in E. set (es := e0 :: er) in *. clearbody es.
    apply bind_inv in E. destruct E as (ed0 & s1 & H & E). apply get_edge_inv in H. destruct H as (-> & _ & _). unfold flatten_trace_body in E.
    apply bind_inv in E. destruct E as (nd & s1 & H & E). apply get_node_inv in H. destruct H as [-> _].
    apply bind_inv in E. destruct E as (ps & s1 & H & E). destruct (trace_pairs_inv H) as [-> _]. clear H. cbv zeta in E.
    apply bind_inv in E. destruct E as (u & s1 & H1 & E). destruct (kd_reorder_axes H1) as [L1 K1].
    apply bind_inv in E. destruct E as (nd' & s2 & H & E). apply get_node_inv in H. destruct H as [-> _].
    apply bind_inv in E. destruct E as (e1 & s2 & H2 & E). destruct (kd_alloc_edge H2) as [L2 K2].
    apply bind_inv in E. destruct E as (e2 & s3 & H3 & E). destruct (kd_alloc_edge H3) as [L3 K3].
    apply bind_inv in E. destruct E as (u4 & s4 & H4 & E). destruct (kd_set_node H4) as [L4 K4].
    apply bind_inv in E. destruct E as (f & s5 & H5 & E). destruct (kd_connect H5) as [L5 K5].
    assert (f < s_ne s5) as Lf.
    { unfold connect in H5. repeat (apply bind_inv in H5; let x := fresh "x" in let sx := fresh "sx" in let Hx := fresh "Hx" in destruct H5 as (x & sx & Hx & H5)).
      injection H5 as <- <-. unfold alloc_edge in Hx6. injection Hx6 as <- <-. destruct (kd_add_edge Hx7) as [Q1 _]. destruct (kd_add_edge Hx8) as [Q2 _]. cbn in Q1. lia. }
    apply bind_inv in E. destruct E as (u6 & s6 & H6 & E). injection E as <- <-. destruct (kd_mfor (l := es) kd_disable H6) as [L6 K6].
    split; [|split; [lia|split; [lia|auto 10]]]. apply (disable_all_dead H6). intros g Hg. specialize (L g Hg). lia.
  Qed.

  Lemma kd_contract_trace e : kd (@contract_trace R e).
  Proof.
    unfold contract_trace. apply kd_bind; [apply kd_read|]. intros ed. destruct (e_2 ed) as [[n2 a2]|]; [|apply kd_fail].
    apply kd_bind; [apply kd_guard|]. intros _. apply kd_bind; [apply kd_read|]. intros nd. cbv zeta.
    apply kd_bind; [apply kd_new_node|]. intros N. apply kd_bind; [|intros _; apply kd_ret].
    unfold remove_trace_edge. apply kd_bind; [apply kd_read|]. intros ed'. destruct (e_2 ed') as [[n2' a2']|]; [|apply kd_fail].
    apply kd_bind; [apply kd_guard|]. intros _. apply kd_bind; [apply kd_read|]. intros nd'. cbv zeta.
    apply kd_bind; [apply kd_mfor; intros f; apply kd_shift|]. intros _. apply kd_bind; [apply kd_add_all|]. intros _.
    apply kd_bind; [apply kd_fresh|]. intros _. apply kd_disable.
  Qed.
  Lemma kd_contract e names : kd (@contract R e names).
  Proof.
    unfold contract. apply kd_bind; [apply kd_read|]. intros ed. destruct (e_2 ed) as [[n2 a2]|]; [|apply kd_fail].
    destruct (Nat.eqb _ _); [apply kd_contract_trace|]. apply kd_bind; [apply kd_read|]. intros d1. apply kd_bind; [apply kd_read|]. intros d2.
    apply kd_bind; [apply kd_new_node|]. intros N. apply kd_bind; [apply kd_remove_edges|]. intros _. apply kd_ret.
  Qed.
  Lemma kd_outer n1 n2 names : kd (@outer_product R n1 n2 names).
  Proof.
    unfold outer_product. apply kd_bind; [apply kd_read|]. intros d1. apply kd_bind; [apply kd_read|]. intros d2.
    apply kd_bind; [apply kd_new_node|]. intros N. apply kd_bind; [apply kd_move_all|]. intros _. apply kd_bind; [apply kd_move_all|]. intros _.
    apply kd_bind; [apply kd_add_all|]. intros _. apply kd_bind; [apply kd_fresh|]. intros _. apply kd_bind; [apply kd_fresh|]. intros _. apply kd_ret.
  Qed.

  Section Iter.
    Variable iter : list nat -> list nat.
    Hypothesis iter_perm : forall l, Permutation (iter l) l.

  (** the trace edges of [n], flattened and contracted, are all disabled *)
  Lemma self_dead n es s s' N : es <> [] ->
    (forall c, In c es -> c < s_ne s /\ exists ed, s_edges s c = Some ed /\ joins ed n n = true) ->
    bind (flatten_edges iter es) (fun e => contract e None) s = (s', Some N) -> forall f, In f es \/ dead s f -> dead s' f.
  Proof using .
    intros Hne Hes E. apply bind_inv in E. destruct E as (e & s1 & H1 & H2).
    assert (forall c, In c es -> exists ed a, s_edges s c = Some ed /\ e_n1 ed = n /\ e_2 ed = Some (n, a)) as Hj.
    { intros c Hc. destruct (Hes c Hc) as (_ & ed & K1 & K2). exists ed. unfold joins in K2. destruct (e_2 ed) as [[m a]|] eqn:E2; [|rewrite andb_false_r in K2 || idtac; discriminate K2].
      exists a. split; [exact K1|]. apply andb_true_iff in K2. destruct K2 as [_ K2]. rewrite orb_diag in K2. apply andb_true_iff in K2. destruct K2 as [K2 K3].
      apply Nat.eqb_eq in K2. apply Nat.eqb_eq in K3. subst. split; reflexivity. }
    destruct es as [|e0 [|e1 r]]; [contradiction Hne; reflexivity| |].
    - cbn [flatten_edges] in H1. apply bind_inv in H1. destruct H1 as (ed & s2 & H & H1). apply get_edge_inv in H. destruct H as (-> & He & _). injection H1 as <- <-.
      destruct (Hj e0 (or_introl eq_refl)) as (ed' & a & J1 & J2 & J3). rewrite He in J1. injection J1 as <-.
      unfold contract in H2. apply bind_inv in H2. destruct H2 as (ed' & s1 & H & E). apply get_edge_inv in H. destruct H as (-> & H & _). rewrite He in H. injection H as <-.
      rewrite J3, J2, Nat.eqb_refl in E. destruct (contract_trace_dead E (proj1 (Hes e0 (or_introl eq_refl)))) as (A & _ & B).
      intros f [[<-|[]]|Hf]; [exact A|apply B; exact Hf].
    - cbn [flatten_edges] in H1. apply bind_inv in H1. destruct H1 as (ed & s2 & H & H1). apply get_edge_inv in H. destruct H as (-> & He & _).
      destruct (Hj e0 (or_introl eq_refl)) as (ed' & a & J1 & J2 & J3). rewrite He in J1. injection J1 as <-. cbv zeta in H1. rewrite J3, J2, Nat.eqb_refl in H1.
      apply bind_inv in H1. destruct H1 as (u & s2 & H & H1).
      assert (s2 = s) as ->. { clear -H. revert H. generalize (e0 :: e1 :: r). induction l as [|c l IH]; intros H; cbn [check_same_nodes] in H; [injection H as <- _; reflexivity|].
        apply bind_inv in H. destruct H as (x & s1 & H & H3). apply get_edge_inv in H. destruct H as (-> & _ & _). apply bind_inv in H3. destruct H3 as (x1 & s1 & H & H3).
        apply guard_inv in H. destruct H as [_ ->]. apply IH. exact H3. }
      destruct (flatten_trace_dead H1) as (A & _ & _ & B); [intros f Hf; apply (Hes f Hf)|]. destruct (kd_contract H2) as [_ K].
      intros f [Hf|Hf]; apply K; [apply A; exact Hf|apply B; exact Hf].
  Qed.
  End Iter.
End GDead.
