(** * GraphLoose: an edge object with one end never gains a second one *)
From Verif Require Import Prelude Algebra Tensor Einsum Graph GraphQuery PathContract.
Set Implicit Arguments.
Unset Strict Implicit.

Section Loose.
  Context {R : csr}.
  Notation st := (@st R).
  Notation M := (@M R).
  Variable iter : list nat -> list nat.

  Definition loose (s : st) (e : eid) : Prop := e < s_ne s /\ exists ed, s_edges s e = Some ed /\ e_2 ed = None.
  Definition stay {A} (m : M A) : Prop := forall s s' r, m s = (s', r) -> forall e, loose s e -> loose s' e.

  Lemma stay_bind A B (m : M A) (f : A -> M B) : stay m -> (forall x, stay (f x)) -> stay (bind m f).
  Proof.
    intros H K s s' r E e L. unfold bind in E. destruct (m s) as [s1 o] eqn:E1. pose proof (H _ _ _ E1 e L) as L1.
    destruct o as [x|]; [apply (K x _ _ _ E e L1)|injection E as <- _; exact L1].
  Qed.
  Lemma stay_read A (f : st -> option A) : stay (fun s => (s, f s)).
  Proof. intros s s' r E e L. injection E as <- _. exact L. Qed.
  Lemma stay_ret A (x : A) : stay (ret x).
  Proof. exact (@stay_read A (fun _ => Some x)). Qed.
  Lemma stay_fail A : stay (@fail R A).
  Proof. exact (@stay_read A (fun _ => None)). Qed.
  Lemma stay_guard b : stay (guard b).
  Proof. destruct b; [apply stay_ret|apply stay_fail]. Qed.
  Lemma stay_get_node n : stay (get_node n).
  Proof. apply stay_read. Qed.
  Lemma stay_get_edge e : stay (get_edge e).
  Proof. apply stay_read. Qed.
  Lemma stay_set_node n x : stay (set_node n x).
  Proof. intros s s' r E e L. injection E as <- _. exact L. Qed.
  Lemma stay_alloc_node x : stay (alloc_node x).
  Proof. intros s s' r E e L. injection E as <- _. exact L. Qed.
  Lemma stay_alloc_edge x : stay (alloc_edge x).
  Proof.
    intros s s' r E e [L (ed & H & K)]. injection E as <- _. split; cbn; [lia|]. exists ed. rewrite upd_other by lia. auto.
  Qed.
  Lemma set_loose s s' r f x : set_edge f x s = (s', r) -> (loose s f -> e_2 x = None) -> forall e, loose s e -> loose s' e.
  Proof.
    intros E H e L. injection E as <- _. destruct (Nat.eq_dec e f) as [->|N].
    - destruct L as [L1 L2]. split; [exact L1|]. exists x. cbn. rewrite upd_same. split; [reflexivity|apply H; split; assumption].
    - destruct L as [L1 (ed & L2 & L3)]. split; [exact L1|]. exists ed. cbn. rewrite upd_other by congruence. auto.
  Qed.
  Lemma stay_update_axis e old new : stay (update_axis e old new).
  Proof.
    intros s s' r E. unfold update_axis, bind, get_edge in E. destruct (s_edges s e) as [ed|] eqn:Q; [|injection E as <- _; auto].
    destruct (e_dis ed); [injection E as <- _; auto|]. assert (loose s e -> e_2 ed = None) as H by (intros (_ & ed' & Q' & K); congruence).
    destruct (_ && _); [apply (set_loose E); exact H|]. destruct (e_2 ed) as [[n2 a2]|]; [|injection E as <- _; auto].
    destruct (_ && _); [|injection E as <- _; auto]. apply (set_loose E). intros K. discriminate (H K).
  Qed.
  Lemma stay_disable e : stay (disable_edge e).
  Proof.
    intros s s' r E. unfold disable_edge in E. destruct (s_edges s e) as [ed|] eqn:Q; [|injection E as <- _; auto].
    apply (set_loose E). intros (_ & ed' & Q' & K). cbn. congruence.
  Qed.
  Lemma stay_shift e nd0 new x y : stay (shift_edge e nd0 new x y).
  Proof.
    intros s s' r E. unfold shift_edge, bind, get_edge in E. destruct (s_edges s e) as [ed|] eqn:Q; [|injection E as <- _; auto].
    destruct (e_dis ed); [injection E as <- _; auto|]. apply (set_loose E). intros (_ & ed' & Q' & K). cbn. assert (ed' = ed) as -> by congruence. rewrite K. reflexivity.
  Qed.

  Create HintDb stay discriminated.
  Hint Resolve stay_ret stay_fail stay_guard stay_get_node stay_get_edge stay_set_node stay_alloc_node stay_alloc_edge stay_update_axis stay_disable stay_shift : stay.
  Ltac stay := repeat first
    [ progress (auto with stay nocore) | apply stay_bind; [|intros] | apply stay_read
    | match goal with
      | |- stay (if ?b then _ else _) => destruct b
      | |- stay (match ?x with _ => _ end) => destruct x
      | |- stay (let x := ?t in _) => cbv zeta
      end ].

  Lemma stay_mfor A (l : list A) (f : A -> M unit) : (forall x, stay (f x)) -> stay (mfor l f).
  Proof. intros H. induction l; cbn [mfor]; stay. Qed.
  Lemma stay_mmap A B (l : list A) (f : A -> M B) : (forall x, stay (f x)) -> stay (mmap f l).
  Proof. intros H. induction l; cbn [mmap]; stay. Qed.
  Lemma stay_next : stay (@next_node R). Proof. apply stay_read. Qed.
  Lemma stay_alloc_edges n i k : stay (alloc_edges n i k).
  Proof. revert i. induction k; intros i; cbn [alloc_edges]; stay. Qed.
  Hint Resolve stay_next stay_alloc_edges : stay.
  Lemma stay_new_node t names : stay (new_node t names).
  Proof. unfold new_node. stay. Qed.
  Lemma stay_add_edge n e ax o : stay (add_edge n e ax o).
  Proof. unfold add_edge. stay. Qed.
  Hint Resolve stay_new_node stay_add_edge : stay.
  Lemma stay_fresh_from n m i k : stay (fresh_edges_from n m i k).
  Proof. revert i. induction k; intros i; cbn [fresh_edges_from]; stay. Qed.
  Hint Resolve stay_fresh_from : stay.
  Lemma stay_fresh n : stay (fresh_edges n).
  Proof. unfold fresh_edges. stay. Qed.
  Lemma stay_edge_of n k : stay (edge_of n k).
  Proof. unfold edge_of. stay. Qed.
  Lemma stay_edge_dim e : stay (edge_dim e).
  Proof. unfold edge_dim. stay. Qed.
  Lemma stay_reorder_loop n es i perm : stay (reorder_loop n es i perm).
  Proof. revert i. induction perm; intros i; cbn [reorder_loop]; stay. Qed.
  Lemma stay_finish n t es names perm : stay (finish_reorder n t es names perm).
  Proof. unfold finish_reorder. stay. Qed.
  Hint Resolve stay_fresh stay_edge_of stay_edge_dim stay_reorder_loop stay_finish : stay.
  Lemma stay_reorder_axes n perm : stay (reorder_axes n perm).
  Proof. unfold reorder_axes. stay. Qed.
  Lemma stay_check_no_trace es : stay (check_no_trace es).
  Proof. induction es; cbn [check_no_trace]; stay. Qed.
  Hint Resolve stay_reorder_axes stay_check_no_trace : stay.
  Lemma stay_reorder_edges n o : stay (reorder_edges n o).
  Proof. unfold reorder_edges. stay. Qed.
  Lemma stay_connect e f : stay (connect e f).
  Proof. unfold connect. stay. Qed.
  Lemma stay_shared n m : stay (get_shared_edges iter n m).
  Proof. unfold get_shared_edges. stay. Qed.
  Lemma stay_move_kept cut old new i k es : stay (move_kept cut old new i k es).
  Proof. revert i k. induction es; intros i k; cbn [move_kept]; stay. Qed.
  Lemma stay_add_all n i es o : stay (add_all n i es o).
  Proof. revert i. induction es; intros i; cbn [add_all]; stay. Qed.
  Lemma stay_check_cut cut n m : stay (check_cut cut n m).
  Proof. induction cut; cbn [check_cut]; stay. Qed.
  Hint Resolve stay_reorder_edges stay_connect stay_shared stay_move_kept stay_add_all stay_check_cut stay_mfor stay_mmap : stay.
  Lemma stay_remove_edges cut n m new : stay (remove_edges cut n m new).
  Proof. unfold remove_edges. stay. Qed.
  Lemma stay_remove_trace e new : stay (remove_trace_edge e new).
  Proof. unfold remove_trace_edge. stay. Qed.
  Hint Resolve stay_remove_edges stay_remove_trace : stay.
  Lemma stay_contract_trace e : stay (contract_trace e).
  Proof. unfold contract_trace. stay. Qed.
  Hint Resolve stay_contract_trace : stay.
  Lemma stay_contract e names : stay (contract e names).
  Proof. unfold contract. stay. Qed.
  Lemma stay_move_all old new i off es : stay (move_all old new i off es).
  Proof. revert i. induction es; intros i; cbn [move_all]; stay. Qed.
  Hint Resolve stay_contract stay_move_all : stay.
  Lemma stay_outer n m names : stay (outer_product n m names).
  Proof. unfold outer_product. stay. Qed.
  Lemma stay_check_same p q es : stay (check_same_nodes p q es).
  Proof. induction es; cbn [check_same_nodes]; stay. Qed.
  Lemma stay_flatten_node n es : stay (flatten_node n es).
  Proof. unfold flatten_node. stay. Qed.
  Lemma stay_flatten_trace es : stay (flatten_trace_edges es).
  Proof.
    unfold flatten_trace_edges. destruct es as [|e0 es]; [stay|]. apply stay_bind; [stay|intros ed0]. cbv zeta. apply stay_bind; [stay|intros nd]. apply stay_bind; [|intros; stay].
    stay. induction es; stay.
  Qed.
  Hint Resolve stay_outer stay_check_same stay_flatten_node stay_flatten_trace : stay.
  Lemma stay_flatten_edges es : stay (flatten_edges iter es).
  Proof. unfold flatten_edges. stay. Qed.
  Lemma stay_classify n m shared i order : stay (classify n m shared i order).
  Proof. revert i. induction order; intros i; cbn [classify]; stay. Qed.
  Hint Resolve stay_flatten_edges stay_classify : stay.
  Lemma stay_between n m ao order names : stay (contract_between iter n m ao order names).
  Proof. unfold contract_between. stay. Qed.
  Hint Resolve stay_between : stay.
  Lemma stay_parallel e : stay (contract_parallel iter e).
  Proof. unfold contract_parallel. stay. Qed.
  Hint Resolve stay_parallel : stay.
  Lemma stay_trace_loop es : forall ns, stay (trace_loop iter es ns).
  Proof. induction es; intros ns; cbn [trace_loop]; stay. Qed.
  Lemma stay_follow path : forall ns, stay (follow iter path ns).
  Proof. induction path as [|[a b] path IH]; intros ns; cbn [follow]; stay. Qed.
  Lemma stay_node_edges n : stay (@node_edges R n).
  Proof. unfold node_edges. stay. Qed.
  Hint Resolve stay_trace_loop stay_follow stay_node_edges : stay.
  Lemma stay_all_edges ns : stay (get_all_edges iter ns).
  Proof. unfold get_all_edges. stay. Qed.
  Hint Resolve stay_all_edges : stay.
  Lemma stay_subgraph ns : stay (get_subgraph_dangling iter ns).
  Proof. unfold get_subgraph_dangling. stay. Qed.
  Hint Resolve stay_subgraph : stay.
  Lemma stay_get_path alg ns : stay (get_path iter alg ns).
  Proof. unfold get_path. stay. Qed.
  Lemma stay_output_order ns o : stay (output_order iter ns o).
  Proof. unfold output_order. stay. Qed.
  Hint Resolve stay_get_path stay_output_order : stay.
  Theorem stay_base alg ns order ignore : stay (base iter alg ns order ignore).
  Proof. unfold base. stay. Qed.
End Loose.
