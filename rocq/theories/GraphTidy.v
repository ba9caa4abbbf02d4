(** * GraphTidy: the node returned by a contractor has one axis name per axis *)
From Verif Require Import Prelude Algebra Tensor TensorFacts Einsum Graph GraphBase GraphOps GraphQuery GraphQueryFacts GraphCopyFacts PathContract PathFacts.
Set Implicit Arguments.
Unset Strict Implicit.

Section Names.
  Context {R : cjr}.
  Notation st := (@st R).
  Notation M := (@M R).
  Variable iter : list nat -> list nat.

  Definition keepn {A} (m : M A) : Prop := forall s s' r, m s = (s', r) -> forall n, named s n -> named s' n.
  Definition mk (m : M nid) : Prop := forall s s' N, m s = (s', Some N) -> named s' N.

  Lemma keepn_bind A B (m : M A) (f : A -> M B) : keepn m -> (forall x, keepn (f x)) -> keepn (bind m f).
  Proof.
    intros H K s s' r E n L. unfold bind in E. destruct (m s) as [s1 o] eqn:E1. pose proof (H _ _ _ E1 n L) as L1.
    destruct o as [x|]; [apply (K x _ _ _ E n L1)|injection E as <- _; exact L1].
  Qed.
  Lemma keepn_read A (f : st -> option A) : keepn (fun s => (s, f s)).
  Proof. intros s s' r E n L. injection E as <- _. exact L. Qed.
  Lemma keepn_ret A (x : A) : keepn (ret x).
  Proof. exact (@keepn_read A (fun _ => Some x)). Qed.
  Lemma keepn_fail A : keepn (@fail R A).
  Proof. exact (@keepn_read A (fun _ => None)). Qed.
  Lemma keepn_guard b : keepn (guard b).
  Proof. destruct b; [apply keepn_ret|apply keepn_fail]. Qed.
  Lemma keepn_get_node n : keepn (get_node n).
  Proof. apply keepn_read. Qed.
  Lemma keepn_get_edge e : keepn (get_edge e).
  Proof. apply keepn_read. Qed.
  Lemma keepn_set_edge e x : keepn (set_edge e x).
  Proof. intros s s' r E n L. injection E as <- _. exact L. Qed.
  Lemma keepn_alloc_edge x : keepn (alloc_edge x).
  Proof. intros s s' r E n L. injection E as <- _. exact L. Qed.
  Lemma keepn_disable e : keepn (disable_edge e).
  Proof.
    intros s s' r E n L. unfold disable_edge in E. destruct (s_edges s e); [|injection E as <- _; exact L]. exact (@keepn_set_edge _ _ _ _ _ E n L).
  Qed.
  Lemma keepn_add_edge n e ax o : keepn (add_edge n e ax o).
  Proof.
    intros s s' r E m L. unfold add_edge, bind, get_node in E. destruct (s_nodes s n) as [nd|] eqn:Q; [|injection E as <- _; exact L].
    unfold guard in E. destruct (ax <? rank (n_t nd)); [|injection E as <- _; exact L]. cbn [ret] in E.
    destruct (nth_error (n_edges nd) ax); [|injection E as <- _; exact L]. destruct (s_edges s n0) as [ed|]; [|injection E as <- _; exact L].
    destruct (is_dangling ed || o); [|injection E as <- _; exact L]. injection E as <- _. intros nd' K. cbn in K. destruct (Nat.eq_dec m n) as [->|Nm].
    - rewrite upd_same in K. injection K as <-. cbn. apply (L nd Q).
    - rewrite upd_other in K by congruence. apply (L nd' K).
  Qed.

  Create HintDb keepn discriminated.
  Hint Resolve keepn_ret keepn_fail keepn_guard keepn_get_node keepn_get_edge keepn_set_edge keepn_alloc_edge keepn_disable keepn_add_edge : keepn.
  Ltac keepn := repeat first
    [ progress (auto with keepn nocore) | apply keepn_bind; [|intros] | apply keepn_read
    | match goal with
      | |- keepn (if ?b then _ else _) => destruct b
      | |- keepn (match ?x with _ => _ end) => destruct x
      | |- keepn (let x := ?t in _) => cbv zeta
      end ].
  Lemma keepn_update_axis e old new : keepn (update_axis e old new).
  Proof. unfold update_axis. keepn. Qed.
  Lemma keepn_shift e nd0 new x y : keepn (shift_edge e nd0 new x y).
  Proof. unfold shift_edge. keepn. Qed.
  Hint Resolve keepn_update_axis keepn_shift : keepn.
  Lemma keepn_mfor A (l : list A) (f : A -> M unit) : (forall x, keepn (f x)) -> keepn (mfor l f).
  Proof. intros H. induction l; cbn [mfor]; keepn. Qed.
  Lemma keepn_fresh_from n m i k : keepn (fresh_edges_from n m i k).
  Proof. revert i. induction k; intros i; cbn [fresh_edges_from]; keepn. Qed.
  Hint Resolve keepn_mfor keepn_fresh_from : keepn.
  Lemma keepn_fresh n : keepn (fresh_edges n).
  Proof. unfold fresh_edges. keepn. Qed.
  Lemma keepn_reorder_loop n es i perm : keepn (reorder_loop n es i perm).
  Proof. revert i. induction perm; intros i; cbn [reorder_loop]; keepn. Qed.
  Lemma keepn_check_no_trace es : keepn (check_no_trace es).
  Proof. induction es; cbn [check_no_trace]; keepn. Qed.
  Lemma keepn_move_kept cut old new i k es : keepn (move_kept cut old new i k es).
  Proof. revert i k. induction es; intros i k; cbn [move_kept]; keepn. Qed.
  Lemma keepn_add_all n i es o : keepn (add_all n i es o).
  Proof. revert i. induction es; intros i; cbn [add_all]; keepn. Qed.
  Lemma keepn_check_cut cut n m : keepn (check_cut cut n m).
  Proof. induction cut; cbn [check_cut]; keepn. Qed.
  Lemma keepn_move_all old new i off es : keepn (move_all old new i off es).
  Proof. revert i. induction es; intros i; cbn [move_all]; keepn. Qed.
  Hint Resolve keepn_fresh keepn_reorder_loop keepn_check_no_trace keepn_move_kept keepn_add_all keepn_check_cut keepn_move_all : keepn.
  Lemma keepn_remove_edges cut n m new : keepn (remove_edges cut n m new).
  Proof. unfold remove_edges. keepn. Qed.
  Lemma keepn_remove_trace e new : keepn (remove_trace_edge e new).
  Proof. unfold remove_trace_edge. keepn. Qed.
  Hint Resolve keepn_remove_edges keepn_remove_trace : keepn.

  (** reorder_edges *)
  Lemma reorder_edges_named n o (s s' : st) (u : unit) : reorder_edges n o s = (s', Some u) -> named s n -> named s' n.
  Proof.
    intros E L. destruct (reorder_edges_inv E) as (nd & Hn & K). cbn zeta in K. destruct K as (_ & _ & RP). destruct RP as (_ & _ & RN & _). destruct (L nd Hn) as [L1 L2].
    assert (is_perm (rank (n_t nd)) (map (fun e => nindex e (n_edges nd)) o)) as P.
    { unfold reorder_edges in E. apply bind_inv in E. destruct E as (nd0 & s1 & H1 & E). apply get_node_inv in H1. destruct H1 as [-> H1]. assert (nd0 = nd) as -> by congruence.
      apply bind_inv in E. destruct E as (u1 & s2 & _ & E). apply bind_inv in E. destruct E as (u2 & s3 & _ & E). apply bind_inv in E. destruct E as (u3 & s4 & _ & E).
      cbv zeta in E. apply bind_inv in E. destruct E as (u4 & s5 & _ & E). apply bind_inv in E. destruct E as (u5 & s6 & H5 & _). apply guard_inv in H5. destruct H5 as [H5 _].
      apply andb_true_iff in H5. apply is_permb_spec. apply H5. }
    intros nd' K. rewrite RN, Nat.eqb_refl in K. injection K as <-. cbn [n_names n_t]. rewrite gather_length, (is_perm_length P). split.
    - apply NoDup_gather; [exact L1|apply (is_perm_NoDup P)|]. intros i Hi. rewrite L2. apply (is_perm_In i P). exact Hi.
    - unfold rank at 2. cbn. rewrite gather_length. symmetry. apply (is_perm_length P).
  Qed.

  (** ** nodes made by contraction *)
  Lemma mk_bind A (m : M A) (f : A -> M nid) : (forall x, mk (f x)) -> mk (bind m f).
  Proof. intros H s s' N E. unfold bind in E. destruct (m s) as [s1 [x|]]; [apply (H x _ _ _ E)|discriminate]. Qed.
  Lemma mk_fail : mk fail.
  Proof. intros s s' N E. discriminate. Qed.
  Lemma mk_new t (f : nid -> M unit) : (forall n, keepn (f n)) -> mk (bind (new_node t None) (fun n => bind (f n) (fun _ => ret n))).
  Proof.
    intros H s s' N E. unfold bind in E. destruct (new_node t None s) as [s1 [n|]] eqn:E1; [|discriminate].
    destruct (f n s1) as [s2 [u|]] eqn:E2; [|discriminate]. injection E as <- <-. apply (H n _ _ _ E2).
    unfold new_node, guard in E1. unfold bind at 1 in E1. cbn [ret] in E1. unfold bind at 1, next_node in E1. unfold bind in E1.
    destruct (alloc_edges (s_nn s) 0 (rank t) s) as [s3 [es|]] eqn:E3; [|discriminate]. injection E1 as <- <-.
    intros nd K. cbn in K. rewrite upd_same in K. injection K as <-. cbn. split; [apply seq_NoDup|apply seq_length].
  Qed.
  Lemma mk_contract_trace e : mk (contract_trace (R := R) e).
  Proof.
    unfold contract_trace. apply mk_bind. intros ed. destruct (e_2 ed) as [[n2 a2]|]; [|apply mk_fail]. apply mk_bind. intros _. apply mk_bind. intros nd. cbv zeta.
    apply (mk_new (f := fun new => remove_trace_edge e new)). intros n. auto with keepn.
  Qed.
  Lemma mk_contract e : mk (contract (R := R) e None).
  Proof.
    unfold contract. apply mk_bind. intros ed. destruct (e_2 ed) as [[n2 a2]|]; [|apply mk_fail]. destruct (_ =? _); [apply mk_contract_trace|].
    apply mk_bind. intros d1. apply mk_bind. intros d2. apply (mk_new (f := fun new => remove_edges [e] (e_n1 ed) n2 new)). intros n. auto with keepn.
  Qed.
  Lemma mk_outer n1 n2 : mk (outer_product (R := R) n1 n2 None).
  Proof.
    intros s s' N E. revert s s' N E. unfold outer_product. apply mk_bind. intros d1. apply mk_bind. intros d2.
    intros s s' N E. apply (@mk_new (outer (n_t d1) (n_t d2)) (fun new => bind (move_all n1 new 0 0 (n_edges d1)) (fun _ => bind (move_all n2 new 0 (rank (n_t d1)) (n_edges d2)) (fun _ =>
      bind (add_all new 0 (n_edges d1 ++ n_edges d2) true) (fun _ => bind (fresh_edges n1) (fun _ => fresh_edges n2)))))) with (s := s).
    - intros n. keepn.
    - revert E. unfold bind, ret. destruct (new_node _ _ s) as [s1 [n|]]; [|auto]. destruct (move_all _ _ _ _ _ s1) as [s2 [|]]; [|auto].
      destruct (move_all _ _ _ _ _ s2) as [s3 [|]]; [|auto]. destruct (add_all _ _ _ _ s3) as [s4 [|]]; [|auto]. destruct (fresh_edges n1 s4) as [s5 [|]]; auto.
  Qed.
  Lemma mk_between n m ao : mk (contract_between iter n m ao [] None).
  Proof.
    unfold contract_between. apply mk_bind. intros d1. apply mk_bind. intros d2. apply mk_bind. intros shared.
    intros s s' N E. unfold bind in E at 1. match type of E with (let (_, _) := ?X s in _) = _ => destruct (X s) as [s1 [new|]] eqn:E1 end; [|discriminate].
    cbn in E. unfold bind, ret in E. injection E as <- <-. revert E1. generalize s s1 new.
    match goal with |- forall s s1 new, ?X s = (s1, Some new) -> _ => change (mk X) end.
    destruct (n =? m).
    - destruct shared; [apply mk_fail|]. apply mk_bind. intros e. apply mk_contract.
    - destruct shared as [|e0 sh]; [apply mk_bind; intros _; apply mk_outer|]. apply mk_bind. intros axes. apply mk_bind. intros swap. cbv zeta.
      apply (mk_new (f := fun new => remove_edges (e0 :: sh) (if swap : bool then m else n) (if swap : bool then n else m) new)). intros k. auto with keepn.
  Qed.
  Lemma mk_parallel e : mk (contract_parallel iter e).
  Proof. unfold contract_parallel. apply mk_bind. intros ed. destruct (e_2 ed) as [[n2 a2]|]; [apply mk_between|apply mk_fail]. Qed.

  Lemma trace_loop_named es : forall S (s s' : st) m, (forall n, S = [n] -> named s n) -> trace_loop iter es S s = (s', Some [m]) -> named s' m.
  Proof.
    induction es as [|e es IH]; intros S s s' m L E; cbn [trace_loop] in E; [injection E as <- ->; apply L; reflexivity|].
    unfold bind at 1 in E. destruct (s_edges s e) as [ed|]; [|discriminate]. destruct (e_dis ed); [apply (IH S s s' m L E)|].
    destruct (is_trace_edge ed); [|apply (IH S s s' m L E)]. unfold bind at 1, guard in E. destruct (mem (e_n1 ed) S); [|discriminate]. cbn [ret] in E. unfold bind in E.
    destruct (contract_parallel iter e s) as [s1 [N|]] eqn:E1; [|discriminate]. apply (IH _ s1 s' m) in E; [exact E|]. intros n K. injection K as <- _. apply (mk_parallel E1).
  Qed.
  Lemma follow_named path : forall nodes (s s' : st) N, follow iter path nodes s = (s', Some [N]) -> 2 <= length nodes \/ (exists m, nodes = [m] /\ named s m) -> named s' N.
  Proof.
    induction path as [|[a b] path IH]; intros nodes s s' N E H; cbn [follow] in E.
    - injection E as <- ->. destruct H as [H|(m & K & L)]; [cbn in H; lia|]. injection K as <-. exact L.
    - destruct (nth_error nodes a) as [n|] eqn:Ea; [|discriminate]. destruct (nth_error nodes b) as [m|] eqn:Eb; [|discriminate]. unfold bind in E.
      destruct (contract_between iter n m true [] None s) as [s1 [N1|]] eqn:E1; [|discriminate]. apply (IH _ _ _ _ E).
      rewrite multi_remove_app.
      + destruct (multi_remove nodes [a; b]) as [|x r]; [right; exists N1; split; [reflexivity|apply (mk_between E1)]|left; cbn; rewrite app_length; cbn; lia].
      + intros i [<-|[<-|[]]]; apply nth_error_Some; congruence.
  Qed.
  Lemma follow_one path : forall nodes (s s' : st) fin, valid_path (length nodes) path -> follow iter path nodes s = (s', Some fin) -> exists N, fin = [N].
  Proof.
    induction path as [|[a b] path IH]; intros nodes s s' fin V E; cbn [follow] in E.
    - injection E as <- <-. destruct nodes as [|n [|]]; try discriminate V. eauto.
    - destruct V as (Ha & Hb & Hab & V). destruct (nth_error nodes a) as [n|] eqn:Ea; [|discriminate]. destruct (nth_error nodes b) as [m|] eqn:Eb; [|discriminate].
      unfold bind in E. destruct (contract_between iter n m true [] None s) as [s1 [N1|]] eqn:E1; [|discriminate]. apply (IH _ _ _ _) in E; [exact E|].
      rewrite multi_remove_app by (intros i [<-|[<-|[]]]; assumption). pose proof (Permutation_length (multi_remove_perm Hab Ea Eb)) as Q. cbn in Q.
      rewrite app_length. cbn. replace (length (multi_remove nodes [a; b]) + 1) with (length nodes - 1) by lia. exact V.
  Qed.
  Lemma mmap_len A B (f : A -> M B) l : forall s s' r, mmap f l s = (s', Some r) -> length r = length l.
  Proof.
    induction l as [|x l IH]; intros s s' r E; cbn [mmap] in E; [injection E as <- <-; reflexivity|].
    apply bind_inv in E. destruct E as (y & s1 & _ & E). apply bind_inv in E. destruct E as (ys & s2 & E1 & E). injection E as <- <-. cbn. f_equal. apply (IH _ _ _ E1).
  Qed.
  Theorem base_named alg ns order ignore (s s' : st) N : (forall l, Permutation (iter l) l) -> algorithm_ok alg -> (forall n, In n ns -> named s n) ->
    base iter alg ns order ignore s = (s', Some N) -> named s' N.
  Proof.
    intros Hit Ha Hns E. unfold base in E. apply bind_inv in E. destruct E as (es & s1 & H1 & E).
    assert (s1 = s) as ->.
    { unfold get_all_edges in H1. apply bind_inv in H1. destruct H1 as (l & s2 & H1 & H2). injection H2 as <- _. clear - H1. revert s s2 l H1. induction (nodup Nat.eq_dec ns) as [|n r IH]; intros s s2 l E; cbn [mmap] in E.
      - injection E as <- _. reflexivity.
      - apply bind_inv in E. destruct E as (y & s1 & E0 & E). apply bind_inv in E. destruct E as (ys & s3 & E1 & E). injection E as <- _. apply IH in E1. subst s3.
        unfold node_edges in E0. apply bind_inv in E0. destruct E0 as (nd & s4 & E2 & E0). apply get_node_inv in E2. destruct E2 as [-> _]. injection E0 as <- _. reflexivity. }
    apply bind_inv in E. destruct E as (o & s1 & H2 & E).
    assert (forall n, In n ns -> named s1 n) as Hns1.
    { assert (forall A (f : st -> option A), keepn (fun s => (s, f s))) as Kr by (intros A f; apply keepn_read).
      assert (forall n, keepn (@node_edges R n)) as K1 by (intros n; unfold node_edges; keepn).
      assert (forall l, keepn (mmap (@node_edges R) l)) as K2 by (intros l; induction l; cbn [mmap]; keepn).
      assert (forall l, keepn (get_subgraph_dangling (R := R) iter l)) as K3 by (intros l; unfold get_subgraph_dangling, get_all_edges; keepn).
      assert (keepn (if ignore then ret [] else output_order (R := R) iter ns order)) as K by (unfold output_order; keepn).
      intros n Hn. apply (K _ _ _ H2). apply Hns, Hn. }
    apply bind_inv in E. destruct E as (S1 & s2 & H3 & E).
    assert (forall m, S1 = [m] -> named s2 m) as Hone.
    { intros m ->. apply (trace_loop_named (S := nodup Nat.eq_dec ns) (s := s1) (es := es)); [|exact H3]. intros n K. apply Hns1. apply (nodup_In Nat.eq_dec). rewrite K. left. reflexivity. }
    assert (forall n s4, bind (if ignore then ret tt else reorder_edges n o) (fun _ => ret n) s4 = (s', Some N) -> named s4 n -> named s' N) as Fin.
    { intros n s4 F L. destruct ignore; [injection F as <- <-; exact L|]. apply bind_inv in F. destruct F as (u & s5 & F1 & F2). injection F2 as <- <-. apply (reorder_edges_named F1 L). }
    assert (forall S1', S1' = S1 -> (forall m, S1' <> [m]) -> bind (get_path iter alg (iter S1)) (fun path => bind (follow iter path (iter S1)) (fun fin => match fin with [] => fail | n :: _ => bind (if ignore then ret tt else reorder_edges n o) (fun _ => ret n) end)) s2 = (s', Some N) -> named s' N) as Many.
    { intros S1' -> Hm F. apply bind_inv in F. destruct F as (path & s3 & F1 & F). apply bind_inv in F. destruct F as (fin & s4 & F2 & F).
      assert (length (iter S1) = length S1) as Ll by (apply Permutation_length, Hit).
      destruct S1 as [|x [|y S1]]; [|exfalso; apply (Hm x); reflexivity|].
      - destruct (iter []); [|discriminate Ll]. destruct path as [|[a b] path]; cbn [follow] in F2; [injection F2 as <- <-; discriminate F|]. destruct a; discriminate F2.
      - assert (exists ins out sz, path = alg ins out sz /\ length ins = length (iter (x :: y :: S1))) as (ins & out & sz & -> & Li).
        { unfold get_path in F1. apply bind_inv in F1. destruct F1 as (ins & t1 & G1 & F1). apply bind_inv in F1. destruct F1 as (out & t2 & G2 & F1). apply bind_inv in F1. destruct F1 as (es' & t3 & G3 & F1).
          apply bind_inv in F1. destruct F1 as (ds & t4 & G4 & F1). injection F1 as _ <-. exists ins, out, (combine es' ds). split; [reflexivity|]. apply (mmap_len G1). }
        assert (valid_path (length (iter (x :: y :: S1))) (alg ins out sz)) as V by (rewrite <- Li; apply Ha; rewrite Li, Ll; cbn; lia).
        destruct (follow_one V F2) as (N1 & ->). apply (Fin N1 s4 F). apply (follow_named F2). left. rewrite Ll. cbn. lia. }
    destruct S1 as [|m [|m' S1]].
    - apply (Many _ eq_refl); [discriminate|exact E].
    - apply (Fin m s2 E). apply Hone. reflexivity.
    - apply (Many _ eq_refl); [discriminate|exact E].
  Qed.
End Names.
