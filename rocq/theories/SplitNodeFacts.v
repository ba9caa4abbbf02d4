(** * SplitNodeFacts: correctness of the split_node family *)
From Verif Require Import Prelude Res Algebra Tensor TensorFacts Einsum EinsumFacts NetworkFacts Graph GraphBase GraphContract GraphOps GraphValue GraphOuter GraphConnect GraphJoin GraphLaws GraphQuery GraphQueryFacts GraphCompound GraphCopy NetIso GraphCopyFacts Backends DecompFacts SplitNode.
Set Implicit Arguments.
Unset Strict Implicit.

Section Frame.
  Context {R : cjr}.
  Notation st := (@st R).
  Implicit Types (s : st).

  (** [s0] is [s] without node [n] *)
  Record rel (n : nid) s s0 : Prop := {
    rl_n : s_nodes s0 n = None;
    rl_nodes : forall m, m <> n -> s_nodes s m = s_nodes s0 m;
    rl_edges : forall e, s_edges s e = s_edges s0 e;
    rl_nn : s_nn s = s_nn s0; rl_ne : s_ne s = s_ne s0; rl_lt : n < s_nn s
  }.
  (** what succeeds without node [n] succeeds in the same way beside it *)
  Definition framed (n : nid) {A} (m : @M R A) : Prop :=
    forall s s0 s0' x, rel n s s0 -> m s0 = (s0', Some x) -> exists s', m s = (s', Some x) /\ rel n s' s0' /\ s_nodes s' n = s_nodes s n.

  Lemma framed_ret n A (x : A) : framed n (ret x).
  Proof. intros s s0 s0' y H E. injection E as <- <-. exists s. auto. Qed.
  Lemma framed_fail n A : framed n (@fail R A).
  Proof. intros s s0 s0' y H E. discriminate. Qed.
  Lemma framed_bind n A B (m : @M R A) (k : A -> @M R B) : framed n m -> (forall x, framed n (k x)) -> framed n (bind m k).
  Proof.
    intros H1 H2 s s0 s0' y Hr E. unfold bind in E. destruct (m s0) as [s1 [x|]] eqn:E1; [|discriminate].
    destruct (H1 _ _ _ _ Hr E1) as (s' & E1' & Hr' & Hn). destruct (H2 x _ _ _ _ Hr' E) as (s'' & E2' & Hr'' & Hn').
    exists s''. unfold bind. rewrite E1'. split; [exact E2'|]. split; [exact Hr''|congruence].
  Qed.
  Lemma framed_guard n b : framed n (guard b).
  Proof. destruct b; [apply framed_ret|apply framed_fail]. Qed.
  Lemma framed_get_node n m : framed n (get_node m).
  Proof.
    intros s s0 s0' x Hr E. unfold get_node in E. injection E as <- E. exists s. split; [|auto]. unfold get_node. f_equal. rewrite <- E.
    apply (rl_nodes Hr). intros ->. rewrite (rl_n Hr) in E. discriminate.
  Qed.
  Lemma framed_edges n A (f : (eid -> option edge) -> option A) : (forall g h, (forall e, g e = h e) -> f g = f h) -> framed n (fun s => (s, f (s_edges s))).
  Proof.
    intros Hf s s0 s0' x Hr E. injection E as <- E. exists s. split; [|auto]. f_equal. rewrite <- E. apply Hf. apply (rl_edges Hr).
  Qed.
  Lemma framed_get_edge n e : framed n (@get_edge R e).
  Proof. apply (framed_edges (f := fun g => match g e with Some ed => if e_dis ed then None else Some ed | None => None end)). intros g h H. rewrite H. reflexivity. Qed.
  Lemma framed_look n e : framed n (fun s => (s, s_edges s e)).
  Proof. apply (framed_edges (f := fun g => g e)). intros g h H. apply H. Qed.
  Lemma framed_set_edge n e x : framed n (@set_edge R e x).
  Proof.
    intros s s0 s0' y Hr E. unfold set_edge in *. injection E as <- <-. eexists. split; [reflexivity|]. split; [|reflexivity].
    destruct Hr. split; cbn; auto. intros f. unfold upd. destruct (Nat.eq_dec f e); auto.
  Qed.
  Lemma framed_set_node n m (x : node) : m <> n -> framed n (@set_node R m x).
  Proof.
    intros Hm s s0 s0' y Hr E. unfold set_node in *. injection E as <- <-. eexists. split; [reflexivity|].
    destruct Hr. split; [split|]; cbn; auto.
    - rewrite upd_other by congruence. assumption.
    - intros m' Hm'. unfold upd. destruct (Nat.eq_dec m' m); auto.
    - rewrite upd_other by congruence. reflexivity.
  Qed.
  Lemma framed_alloc_edge n x : framed n (@alloc_edge R x).
  Proof.
    intros s s0 s0' y Hr E. unfold alloc_edge in *. injection E as <- <-. rewrite (rl_ne Hr). eexists. split; [reflexivity|]. split; [|reflexivity].
    destruct Hr. split; cbn; auto. intros f. unfold upd. destruct (Nat.eq_dec f (s_ne s0)); auto.
  Qed.
  Lemma framed_alloc_node n (x : node) : framed n (@alloc_node R x).
  Proof.
    intros s s0 s0' y Hr E. unfold alloc_node in *. injection E as <- <-. rewrite (rl_nn Hr). eexists. split; [reflexivity|].
    destruct Hr. split; [split|]; cbn; auto; try lia.
    - rewrite upd_other by lia. assumption.
    - intros m' Hm'. unfold upd. destruct (Nat.eq_dec m' (s_nn s0)); auto.
    - rewrite upd_other by lia. reflexivity.
  Qed.
  Lemma framed_next n : framed n (@next_node R).
  Proof. intros s s0 s0' y Hr E. unfold next_node in *. injection E as <- <-. exists s. rewrite (rl_nn Hr). auto. Qed.
  Lemma framed_alloc_edges n m : forall k i, framed n (@alloc_edges R m i k).
  Proof.
    induction k as [|k IH]; intros i; cbn [alloc_edges]; [apply framed_ret|]. apply framed_bind; [apply framed_alloc_edge|].
    intros e. apply framed_bind; [apply IH|]. intros es. apply framed_ret.
  Qed.
  Lemma framed_new_node n t nms : framed n (@new_node R t nms).
  Proof.
    apply framed_bind; [apply framed_guard|]. intros _. apply framed_bind; [apply framed_next|]. intros m.
    apply framed_bind; [apply framed_alloc_edges|]. intros es. apply framed_alloc_node.
  Qed.
  Lemma framed_add_edge n m e ax ov : framed n (@add_edge R m e ax ov).
  Proof.
    intros s s0 s0' x Hr E. assert (m <> n) as Hm.
    { intros ->. unfold add_edge, bind, get_node in E. rewrite (rl_n Hr) in E. discriminate. }
    revert s s0 s0' x Hr E. change (framed n (@add_edge R m e ax ov)).
    apply framed_bind; [apply framed_get_node|]. intros nd. apply framed_bind; [apply framed_guard|]. intros _.
    destruct (nth_error (n_edges nd) ax) as [old|]; [|apply framed_fail].
    apply framed_bind; [apply framed_look|]. intros oe. apply framed_bind; [apply framed_guard|]. intros _. apply framed_set_node. exact Hm.
  Qed.
  Lemma framed_update_axis n e o p : framed n (@update_axis R e o p).
  Proof.
    apply framed_bind; [apply framed_get_edge|]. intros ed. destruct (_ && _); [apply framed_set_edge|].
    destruct (e_2 ed) as [[n2 a2]|]; [|apply framed_fail]. destruct (_ && _); [apply framed_set_edge|apply framed_fail].
  Qed.
  Lemma framed_edge_dim n e : framed n (@edge_dim R e).
  Proof.
    apply framed_bind; [apply framed_get_edge|]. intros ed. apply framed_bind; [apply framed_get_node|]. intros nd.
    destruct (nth_error _ _); [apply framed_ret|apply framed_fail].
  Qed.
  Lemma framed_edge_of n m ax : framed n (@edge_of R m ax).
  Proof. apply framed_bind; [apply framed_get_node|]. intros nd. destruct (nth_error _ _); [apply framed_ret|apply framed_fail]. Qed.
  Lemma framed_connect n e1 e2 : framed n (@connect R e1 e2).
  Proof.
    apply framed_bind; [apply framed_get_edge|]. intros d1. apply framed_bind; [apply framed_get_edge|]. intros d2.
    apply framed_bind; [apply framed_guard|]. intros _. apply framed_bind; [apply framed_guard|]. intros _.
    apply framed_bind; [apply framed_edge_dim|]. intros m1. apply framed_bind; [apply framed_edge_dim|]. intros m2.
    apply framed_bind; [apply framed_guard|]. intros _. apply framed_bind; [apply framed_alloc_edge|]. intros e.
    apply framed_bind; [apply framed_add_edge|]. intros _. apply framed_bind; [apply framed_add_edge|]. intros _. apply framed_ret.
  Qed.
  Lemma framed_mmap n A B (f : A -> @M R B) l : (forall x, framed n (f x)) -> framed n (mmap f l).
  Proof.
    intros H. induction l as [|x l IH]; cbn [mmap]; [apply framed_ret|]. apply framed_bind; [apply H|]. intros y.
    apply framed_bind; [apply IH|]. intros ys. apply framed_ret.
  Qed.
  Lemma framed_node_axis n m e : framed n (@node_axis R m e).
  Proof.
    apply framed_bind; [apply framed_get_edge|]. intros ed. destruct (Nat.eqb _ _); [apply framed_ret|].
    destruct (e_2 ed) as [[n2 a2]|]; [apply framed_ret|apply framed_fail].
  Qed.
  Lemma framed_move_edges n m N es : forall axs i, framed n (@move_edges R m N i axs es).
  Proof.
    induction es as [|e es IH]; intros [|ax axs] i; try apply framed_ret. cbn [move_edges].
    apply framed_bind; [apply framed_add_edge|]. intros _. apply framed_bind; [apply framed_update_axis|]. intros _. apply IH.
  Qed.
  Lemma framed_last_edge n m : framed n (@last_edge R m).
  Proof. apply framed_bind; [apply framed_get_node|]. intros nd. destruct (rev _); [apply framed_fail|apply framed_ret]. Qed.
End Frame.

Section Move.
  Context {R : cjr}.
  Notation st := (@st R).
  Implicit Types (s : st) (e f : eid) (X : eid -> Prop).

  (** the state without node [n] *)
  Definition drop (n : nid) s : st := St (fun m => if Nat.eqb m n then None else s_nodes s m) (s_edges s) (s_nn s) (s_ne s).
  Lemma drop_rel n s : n < s_nn s -> rel n s (drop n s).
  Proof.
    intros H. split; cbn; auto; [rewrite Nat.eqb_refl; reflexivity|]. intros m Hm. destruct (Nat.eqb_spec m n); [contradiction|reflexivity].
  Qed.

  Lemma slot_drop_other n s p : fst p <> n -> slot (drop n s) p = slot s p.
  Proof. intros H. unfold slot, drop. cbn. destruct (Nat.eqb_spec (fst p) n); [contradiction|reflexivity]. Qed.
  Lemma dimat_drop_other n s p : fst p <> n -> dimat (drop n s) p = dimat s p.
  Proof. intros H. unfold dimat, drop. cbn. destruct (Nat.eqb_spec (fst p) n); [contradiction|reflexivity]. Qed.
  Lemma slot_drop_Some n s p e : slot (drop n s) p = Some e -> fst p <> n /\ slot s p = Some e.
  Proof. unfold slot, drop. cbn. destruct (Nat.eqb_spec (fst p) n); [discriminate|auto]. Qed.

  (** a well-formed state without the node: the node's edges are the exceptions *)
  Lemma wf_drop n s : wf s -> wfx (on s n) (drop n s).
  Proof.
    intros W. split; cbn [drop s_nodes s_edges s_nn s_ne].
    - intros m nd H. destruct (Nat.eqb m n); [discriminate|]. apply (wf_rank W H).
    - intros m nd H. destruct (Nat.eqb m n); [discriminate|]. apply (wf_nn W H).
    - apply (wf_ne W).
    - intros p e Hp. apply slot_drop_Some in Hp. destruct Hp as [Hn Hp]. destruct (wf_slot W Hp) as (ed & E1 & E2 & E3 & E4 & E5).
      exists ed. split; [exact E1|]. split; [exact E2|]. split; [exact E3|]. split; [exact E4|]. intros HX q Hq.
      destruct (E5 (fun HF => HF) q Hq) as [K1 K2]. assert (fst q <> n) as Hqn.
      { intros E. apply HX. exists (snd q). rewrite <- E, <- surjective_pairing. exact K1. }
      rewrite slot_drop_other, !dimat_drop_other by assumption. auto.
  Qed.

  (** edge [e] still has an end at axis [ax] of the node that is being taken apart; its other ends are
      live and have dimension d *)
  Definition pend s n e ax d : Prop := exists ed, s_edges s e = Some ed /\ e_dis ed = false /\ NoDup (ends ed) /\ In (n, ax) (ends ed) /\
    forall q, In q (ends ed) -> q <> (n, ax) -> fst q <> n /\ slot s q = Some e /\ dimat s q = Some d.
  Definition loose_at s p f d : Prop := slot s p = Some f /\ s_edges s f = Some (Edge (fst p) (snd p) None false) /\ dimat s p = Some d.

  Lemma node_axis_ok s n e ax d : pend s n e ax d -> node_axis n e s = (s, Some ax).
  Proof.
    intros (ed & E1 & E2 & E3 & E4 & E5). unfold node_axis, bind, get_edge. rewrite E1, E2. destruct ed as [n1 a1 [p2|] ds]; unfold ends in *; cbn in *.
    - destruct (Nat.eqb_spec n1 n) as [->|Hne].
      + destruct E4 as [E4|[->|[]]]; [injection E4 as ->; reflexivity|].
        destruct (slot_eqb_spec (n, a1) (n, ax)) as [K|K]; [injection K as ->; reflexivity|].
        destruct (E5 (n, a1) (or_introl eq_refl) K) as [Q _]. cbn in Q. contradiction.
      + destruct E4 as [E4|[->|[]]]; [congruence|]. reflexivity.
    - destruct E4 as [E4|[]]. injection E4 as -> ->. rewrite Nat.eqb_refl. reflexivity.
  Qed.
  Lemma node_axes_ok s n axf df es : (forall e, In e es -> pend s n e (axf e) (df e)) -> mmap (node_axis n) es s = (s, Some (map axf es)).
  Proof.
    induction es as [|e es IH]; intros H; cbn [mmap map]; [reflexivity|]. unfold bind.
    rewrite (node_axis_ok (H e (or_introl eq_refl))), IH by (intros x Hx; apply H; right; exact Hx). reflexivity.
  Qed.

  Lemma app1_ends ed o q : NoDup (ends ed) -> In o (ends ed) -> Permutation (ends (app1 ed o q)) (map (fun p => if slot_eqb p o then q else p) (ends ed)) /\ e_dis (app1 ed o q) = false.
  Proof.
    intros HN Ho. destruct ed as [n1 a1 [p2|] ds]; unfold ends in *; cbn in *.
    - destruct (slot_eqb_spec (n1, a1) o) as [<-|Hne].
      + unfold app1. cbn [e_n1 e_a1 e_2]. destruct (slot_eqb_spec (n1, a1) (n1, a1)); [|congruence]. cbn. destruct (slot_eqb_spec p2 (n1, a1)) as [->|].
        * exfalso. apply NoDup_cons_iff in HN. apply (proj1 HN). left. reflexivity.
        * rewrite <- surjective_pairing. auto.
      + destruct Ho as [Ho|[<-|[]]]; [congruence|]. unfold app1. cbn [e_n1 e_a1 e_2]. destruct (slot_eqb_spec (n1, a1) p2); [congruence|].
        destruct (slot_eqb_spec p2 p2); [|congruence]. cbn. auto.
    - destruct Ho as [<-|[]]. unfold app1. cbn [e_n1 e_a1 e_2]. destruct (slot_eqb_spec (n1, a1) (n1, a1)); [|congruence]. cbn. rewrite <- surjective_pairing. auto.
  Qed.

  Lemma no_slot s n p : s_nodes s n = None -> fst p = n -> slot s p = None.
  Proof. intros H <-. unfold slot. rewrite H. reflexivity. Qed.

  Lemma move_one s n N i e ax d X f : wfx X s -> s_nodes s n = None -> pend s n e ax d -> loose_at s (N, i) f d ->
    exists s', (forall A (k : @M R A), bind (add_edge N e i false) (fun _ => bind (update_axis e (n, ax) (N, i)) (fun _ => k)) s = k s') /\
      wfx (fun x => X x /\ x <> e) s' /\ s_nn s' = s_nn s /\ s_ne s' = s_ne s /\
      (forall m, s_nodes s' m = if Nat.eqb m N then option_map (fun nd => Node (n_t nd) (replace_nth i e (n_edges nd)) (n_names nd)) (s_nodes s N) else s_nodes s m) /\
      (forall x, x <> e -> s_edges s' x = s_edges s x) /\
      (forall q, slot s' q = if slot_eqb q (N, i) then Some e else slot s q) /\ (forall q, dimat s' q = dimat s q).
  Proof.
    intros W Hn (ed & E1 & E2 & E3 & E4 & E5) (Hf & Ef & Df).
    assert (exists nd, s_nodes s N = Some nd /\ nth_error (n_edges nd) i = Some f) as (nd & HN & Hi) by (apply slot_node; exact Hf).
    assert (N <> n) as HNn by congruence.
    assert (i < length (n_edges nd)) as Hlt by (apply nth_error_Some; congruence).
    pose proof (wf_rank W HN) as Hrk.
    set (s1 := with_node s N (Node (n_t nd) (replace_nth i e (n_edges nd)) (n_names nd))).
    assert (add_edge N e i false s = (s1, Some tt)) as H1.
    { unfold add_edge, bind, get_node. rewrite HN. unfold guard. rewrite (proj2 (Nat.ltb_lt _ _)) by lia. unfold ret. rewrite Hi, Ef. reflexivity. }
    assert (update_axis e (n, ax) (N, i) s1 = (with_edge s1 e (app1 ed (n, ax) (N, i)), Some tt)) as H2.
    { apply update_axis_ok; assumption. }
    exists (with_edge s1 e (app1 ed (n, ax) (N, i))). split; [intros A k; unfold bind; rewrite H1, H2; reflexivity|].
    assert (forall m, s_nodes (with_edge s1 e (app1 ed (n, ax) (N, i))) m = if Nat.eqb m N then option_map (fun nd => Node (n_t nd) (replace_nth i e (n_edges nd)) (n_names nd)) (s_nodes s N) else s_nodes s m) as Hnodes.
    { intros m. unfold with_edge, s1, with_node. cbn [s_nodes]. destruct (Nat.eqb_spec m N) as [->|Hne].
      - rewrite upd_same, HN. reflexivity.
      - rewrite upd_other by exact Hne. reflexivity. }
    assert (forall x, x <> e -> s_edges (with_edge s1 e (app1 ed (n, ax) (N, i))) x = s_edges s x) as Hedges.
    { intros x Hx. unfold with_edge, s1, with_node. cbn [s_edges]. rewrite upd_other by exact Hx. reflexivity. }
    set (s' := with_edge s1 e (app1 ed (n, ax) (N, i))) in *.
    assert (s_edges s' e = Some (app1 ed (n, ax) (N, i))) as He' by (unfold s', with_edge; cbn [s_edges]; apply upd_same).
    assert (s_nn s' = s_nn s) as Hnn by reflexivity. assert (s_ne s' = s_ne s) as Hne0 by reflexivity. clearbody s'. clear H1 H2 s1.
    assert (f <> e) as Hfe.
    { intros ->. rewrite E1 in Ef. injection Ef as ->. cbn in E4. destruct E4 as [K|[]]. congruence. }
    assert (forall q, slot s' q = if slot_eqb q (N, i) then Some e else slot s q) as Hslot.
    { intros [m j]. unfold slot. cbn [fst snd]. rewrite Hnodes. destruct (Nat.eqb_spec m N) as [->|Hne].
      - rewrite HN. cbn [option_map n_edges]. rewrite nth_error_replace_nth. destruct (slot_eqb_spec (N, j) (N, i)) as [K|K].
        + injection K as ->. rewrite Nat.eqb_refl, (proj2 (Nat.ltb_lt _ _)) by exact Hlt. reflexivity.
        + destruct (Nat.eqb_spec j i) as [->|]; [congruence|reflexivity].
      - destruct (slot_eqb_spec (m, j) (N, i)) as [K|]; [congruence|reflexivity]. }
    assert (forall q, dimat s' q = dimat s q) as Hdim.
    { intros [m j]. unfold dimat. cbn [fst snd]. rewrite Hnodes. destruct (Nat.eqb_spec m N) as [->|Hne]; [|reflexivity]. rewrite HN. reflexivity. }
    split; [|split; [exact Hnn|split; [exact Hne0|split; [exact Hnodes|split; [exact Hedges|split; [exact Hslot|exact Hdim]]]]]].
    assert (forall q, slot s q = Some f -> q = (N, i)) as Hfu.
    { intros q K. destruct (wf_slot W K) as (fd & F1 & _ & F3 & _). rewrite Ef in F1. injection F1 as <-. cbn in F3. destruct F3 as [F3|[]]. congruence. }
    destruct (app1_ends (N, i) E3 E4) as [Hends Hdis].
    split.
    - intros m md H. rewrite Hnodes in H. destruct (Nat.eqb_spec m N) as [->|Hne].
      + rewrite HN in H. injection H as <-. cbn. rewrite replace_nth_length. exact Hrk.
      + apply (wf_rank W H).
    - intros m md H. rewrite Hnn. rewrite Hnodes in H. destruct (Nat.eqb_spec m N) as [->|Hne]; [apply (wf_nn W HN)|apply (wf_nn W H)].
    - intros x xd H. rewrite Hne0. destruct (Nat.eq_dec x e) as [->|Hne]; [apply (wf_ne W E1)|]. rewrite Hedges in H by exact Hne. apply (wf_ne W H).
    - intros p x Hp. rewrite Hslot in Hp.
      assert (forall q, In q (ends ed) -> In (if slot_eqb q (n, ax) then (N, i) else q) (ends (app1 ed (n, ax) (N, i)))) as Hin1.
      { intros q Hq. apply (Permutation_in _ (Permutation_sym Hends)). apply in_map_iff. exists q. auto. }
      assert (forall q, In q (ends (app1 ed (n, ax) (N, i))) -> q = (N, i) \/ (In q (ends ed) /\ q <> (n, ax))) as Hin2.
      { intros q Hq. apply (Permutation_in _ Hends) in Hq. apply in_map_iff in Hq. destruct Hq as (q0 & <- & Hq0).
        destruct (slot_eqb_spec q0 (n, ax)); auto. }
      assert (~ In (N, i) (ends ed)) as HNi.
      { intros K. destruct (E5 (N, i) K) as (_ & Q & _); [congruence|]. rewrite Hf in Q. congruence. }
      assert (x = e -> slot s p = Some e \/ p = (N, i)) as Hxe by (intros ->; destruct (slot_eqb_spec p (N, i)); auto).
      destruct (Nat.eq_dec x e) as [->|Hne].
      + (* the moved edge *)
        exists (app1 ed (n, ax) (N, i)). split; [exact He'|]. split; [exact Hdis|].
        assert (NoDup (ends (app1 ed (n, ax) (N, i)))) as HND.
        { apply (Permutation_NoDup (Permutation_sym Hends)). apply NoDup_map_in; [|exact E3].
          intros q1 q2 Q1 Q2. destruct (slot_eqb_spec q1 (n, ax)) as [->|], (slot_eqb_spec q2 (n, ax)) as [->|]; auto; intros K; subst; contradiction. }
        assert (In p (ends (app1 ed (n, ax) (N, i)))) as Hpin.
        { destruct (Hxe eq_refl) as [K| ->].
          - destruct (wf_slot W K) as (ed' & F1 & _ & F3 & _). rewrite E1 in F1. injection F1 as <-.
            specialize (Hin1 p F3). destruct (slot_eqb_spec p (n, ax)) as [->|]; [|exact Hin1]. rewrite (@no_slot s n (n, ax) Hn eq_refl) in K. discriminate.
          - specialize (Hin1 _ E4). destruct (slot_eqb_spec (n, ax) (n, ax)); [exact Hin1|congruence]. }
        split; [exact Hpin|]. split; [exact HND|]. intros _ q Hq.
        assert (forall q, In q (ends (app1 ed (n, ax) (N, i))) -> slot s' q = Some e /\ dimat s' q = Some d) as Hall.
        { intros q0 Hq0. rewrite Hslot, Hdim. destruct (Hin2 q0 Hq0) as [-> |[K1 K2]].
          - destruct (slot_eqb_spec (N, i) (N, i)); [auto|congruence].
          - destruct (E5 q0 K1 K2) as (Q1 & Q2 & Q3). destruct (slot_eqb_spec q0 (N, i)) as [->|]; auto. }
        destruct (Hall q Hq) as (Q2 & Q3). destruct (Hall p Hpin) as (P2 & P3). split; [exact Q2|congruence].
      + (* another edge *)
        destruct (slot_eqb_spec p (N, i)) as [->|Hpi]; [congruence|].
        destruct (wf_slot W Hp) as (xd & F1 & F2 & F3 & F4 & F5). exists xd. split; [rewrite Hedges by exact Hne; exact F1|].
        split; [exact F2|]. split; [exact F3|]. split; [exact F4|]. intros HX q Hq.
        assert (~ X x) as HX' by tauto. destruct (F5 HX' q Hq) as [Q1 Q2]. rewrite Hslot, !Hdim.
        destruct (slot_eqb_spec q (N, i)) as [->|]; [|auto]. exfalso. rewrite Hf in Q1. injection Q1 as <-.
        apply Hpi. apply Hfu; assumption.
  Qed.

  Lemma replace_nth_app A (pre l : list A) x : forall i, i = length pre -> replace_nth i x (pre ++ l) = pre ++ replace_nth 0 x l.
  Proof. induction pre as [|y pre IH]; intros i ->; cbn; [reflexivity|]. f_equal. apply IH. reflexivity. Qed.

  Lemma move_edges_ok n N axf df : forall es fs pre post i t nm X s, wfx X s -> s_nodes s n = None -> NoDup es ->
    s_nodes s N = Some (Node t (pre ++ fs ++ post) nm) -> i = length pre -> length fs = length es ->
    (forall e, In e es -> pend s n e (axf e) (df e)) ->
    (forall j f, nth_error fs j = Some f -> exists e, nth_error es j = Some e /\ loose_at s (N, i + j) f (df e)) ->
    exists s', move_edges n N i (map axf es) es s = (s', Some tt) /\
      wfx (fun x => X x /\ ~ In x es) s' /\ s_nn s' = s_nn s /\ s_ne s' = s_ne s /\
      (forall m, s_nodes s' m = if Nat.eqb m N then Some (Node t (pre ++ es ++ post) nm) else s_nodes s m) /\
      (forall x, ~ In x es -> s_edges s' x = s_edges s x) /\ (forall q, dimat s' q = dimat s q).
  Proof.
    induction es as [|e es IH]; intros fs pre post i t nm X s W Hn HND HN Hi Hl Hp Hf.
    - destruct fs; [|discriminate]. exists s. cbn [map move_edges]. split; [reflexivity|]. split; [apply (wfx_weaken (X := X)); [auto|exact W]|].
      split; [reflexivity|]. split; [reflexivity|]. split; [|auto]. intros m. destruct (Nat.eqb_spec m N) as [->|]; auto.
    - destruct fs as [|f fs]; [discriminate|]. injection Hl as Hl. apply NoDup_cons_iff in HND. destruct HND as [He HND].
      destruct (Hf 0 f eq_refl) as (e0 & Q & Hf0). injection Q as <-. rewrite Nat.add_0_r in Hf0.
      destruct (move_one W Hn (Hp e (or_introl eq_refl)) Hf0) as (s1 & K1 & W1 & N1 & M1 & P1 & E1 & S1 & D1).
      assert (N <> n) as HNn by congruence.
      assert (s_nodes s1 n = None) as Hn1 by (rewrite P1; destruct (Nat.eqb_spec n N); [congruence|exact Hn]).
      assert (forall x ax d, x <> e -> pend s n x ax d -> pend s1 n x ax d) as Hpend.
      { intros x ax d Hx (ed & F1 & F2 & F3 & F4 & F5). exists ed. split; [rewrite E1 by exact Hx; exact F1|]. split; [exact F2|]. split; [exact F3|]. split; [exact F4|].
        intros q Hq Hqn. destruct (F5 q Hq Hqn) as (Q1 & Q2 & Q3). split; [exact Q1|]. rewrite S1, D1. split; [|exact Q3].
        destruct (slot_eqb_spec q (N, i)) as [->|]; [|exact Q2]. exfalso. destruct Hf0 as (G1 & G2 & _). rewrite G1 in Q2. injection Q2 as ->.
        rewrite F1 in G2. injection G2 as ->. cbn in F4. destruct F4 as [F4|[]]. congruence. }
      assert (s_nodes s1 N = Some (Node t ((pre ++ [e]) ++ fs ++ post) nm)) as HN1.
      { rewrite P1, Nat.eqb_refl, HN. cbn [option_map n_t n_edges n_names]. do 2 f_equal. rewrite replace_nth_app by exact Hi. cbn. rewrite <- app_assoc. reflexivity. }
      destruct (IH fs (pre ++ [e]) post (S i) t nm (fun x => X x /\ x <> e) s1) as (s' & K2 & W2 & N2 & M2 & P2 & E2 & D2).
      + exact W1.
      + exact Hn1.
      + exact HND.
      + exact HN1.
      + rewrite app_length. cbn. lia.
      + exact Hl.
      + intros x Hx. apply Hpend; [intros ->; contradiction|]. apply Hp. right. exact Hx.
      + intros j x Hj. destruct (Hf (S j) x Hj) as (e0 & Q & G1 & G2 & G3). exists e0. split; [exact Q|].
        replace (i + S j) with (S i + j) in * by lia. split; [|split].
        * rewrite S1. destruct (slot_eqb_spec (N, S i + j) (N, i)) as [K|]; [|exact G1]. injection K as K. lia.
        * rewrite E1; [exact G2|]. intros ->. destruct (Hp e (or_introl eq_refl)) as (ed & F1 & _ & _ & F4 & _). rewrite F1 in G2. injection G2 as ->.
          cbn in F4. destruct F4 as [F4|[]]. congruence.
        * rewrite D1. exact G3.
      + exists s'. cbn [map move_edges]. rewrite K1. split; [exact K2|]. split.
        { apply (wfx_weaken (X := fun x => (X x /\ x <> e) /\ ~ In x es)); [|exact W2]. intros x [[A B] C]. split; [exact A|]. intros [->|K]; auto. }
        split; [congruence|]. split; [congruence|]. split; [|split; [|congruence]].
        * intros m. rewrite P2. destruct (Nat.eqb_spec m N) as [->|Hne]; [rewrite <- app_assoc; reflexivity|]. rewrite P1. destruct (Nat.eqb_spec m N); [contradiction|reflexivity].
        * intros x Hx. rewrite E2, E1; [reflexivity| |]; intros K; apply Hx; [left; congruence|right; exact K].
  Qed.

  Lemma pend_keep s s' n e ax d : pend s n e ax d -> s_edges s' e = s_edges s e -> (forall q, slot s q = Some e -> slot s' q = slot s q /\ dimat s' q = dimat s q) -> pend s' n e ax d.
  Proof.
    intros (ed & F1 & F2 & F3 & F4 & F5) He Hq. exists ed. split; [congruence|]. split; [exact F2|]. split; [exact F3|]. split; [exact F4|].
    intros q Q1 Q2. destruct (F5 q Q1 Q2) as (A & B & C). destruct (Hq q B) as [-> ->]. auto.
  Qed.

  (** a new node beside the exceptions *)
  Lemma new_node_wfx X t names s s' N : wfx X s -> new_node t names s = (s', Some N) ->
    wfx X s' /\ N = s_nn s /\ s_nodes s N = None /\ s_nn s' = S (s_nn s) /\ s_ne s' = s_ne s + rank t /\
    (exists nms, (names = None -> nms = seq 0 (rank t)) /\ (forall l, names = Some l -> nms = l) /\
                 s_nodes s' N = Some (Node t (seq (s_ne s) (rank t)) nms)) /\
    (forall m, m <> N -> s_nodes s' m = s_nodes s m) /\ (forall e, e < s_ne s -> s_edges s' e = s_edges s e) /\
    (forall k d, nth_error (shape t) k = Some d -> loose_at s' (N, k) (s_ne s + k) d).
  Proof.
    intros W H. apply new_node_inv in H. destruct H as (nms & -> & H1 & H2 & H3 & H4 & H5 & H6 & H7).
    assert (s_nodes s (s_nn s) = None) as Hnone.
    { destruct (s_nodes s (s_nn s)) eqn:E; [|reflexivity]. pose proof (wf_nn W E). lia. }
    assert (forall e, e < s_ne s -> s_edges s' e = s_edges s e) as Hold.
    { intros e He. rewrite H7. rewrite (proj2 (Nat.leb_nle _ _)) by lia. reflexivity. }
    assert (forall m, m <> s_nn s -> s_nodes s' m = s_nodes s m) as Hm.
    { intros m Hm. rewrite H6. destruct (Nat.eqb_spec m (s_nn s)); [contradiction|reflexivity]. }
    assert (forall k, k < rank t -> slot s' (s_nn s, k) = Some (s_ne s + k) /\ s_edges s' (s_ne s + k) = Some (Edge (s_nn s) k None false)) as Hl0.
    { intros k Hk. split.
      - unfold slot. cbn [fst snd]. rewrite H6, Nat.eqb_refl. cbn [n_edges]. rewrite (nth_error_nth' _ 0) by (rewrite seq_length; exact Hk). rewrite seq_nth by exact Hk. reflexivity.
      - rewrite H7. rewrite (proj2 (Nat.leb_le _ _)), (proj2 (Nat.ltb_lt _ _)) by lia. cbn [andb]. do 2 f_equal. lia. }
    assert (forall k e, slot s' (s_nn s, k) = Some e -> s_edges s' e = Some (Edge (s_nn s) k None false)) as Hl.
    { intros k e Hk. assert (k < rank t) as Hkt.
      { unfold slot in Hk. cbn [fst snd] in Hk. rewrite H6, Nat.eqb_refl in Hk. cbn [n_edges] in Hk. rewrite <- (seq_length (rank t) (s_ne s)). apply nth_error_Some. congruence. }
      destruct (Hl0 k Hkt) as [A B]. congruence. }
    split.
    2:{ split; [reflexivity|]. split; [exact Hnone|]. split; [exact H1|]. split; [exact H2|]. split; [exists nms; rewrite H6, Nat.eqb_refl; auto|].
        split; [exact Hm|]. split; [exact Hold|]. intros k d Hk. assert (k < rank t) as Hkt by (apply nth_error_Some; congruence).
        destruct (Hl0 k Hkt) as [A B]. split; [exact A|]. split; [exact B|]. unfold dimat. cbn [fst snd]. rewrite H6, Nat.eqb_refl. exact Hk. }
    apply (@wfx_rename _ X s s').
    - intros m nd E. rewrite H6 in E. destruct (Nat.eqb_spec m (s_nn s)); [|apply (wf_rank W E)].
      injection E as <-. cbn. apply seq_length.
    - intros m nd E. rewrite H1. rewrite H6 in E. destruct (Nat.eqb_spec m (s_nn s)); [lia|]. pose proof (wf_nn W E). lia.
    - intros e ed E. rewrite H2. rewrite H7 in E.
      destruct (Nat.leb_spec (s_ne s) e); [|lia]. destruct (Nat.ltb_spec e (s_ne s + rank t)); [lia|].
      cbn [andb] in E. pose proof (wf_ne W E). lia.
    - intros [m k] e Hs. cbn [fst snd]. destruct (Nat.eq_dec m (s_nn s)) as [->|Hne]; [left; apply Hl; exact Hs|right].
      assert (forall q, fst q <> s_nn s -> slot s' q = slot s q /\ dimat s' q = dimat s q) as Hq.
      { intros q Hq. unfold slot, dimat. rewrite (Hm _ Hq). auto. }
      rewrite (proj1 (Hq (m, k) Hne)) in Hs. destruct (wf_slot W Hs) as (ed & E1 & E2 & E3 & E4 & E5).
      exists (fun p => p), (m, k), ed, ed. split; [exact Hs|]. split; [reflexivity|]. split; [exact E1|].
      split; [rewrite Hold; [exact E1|apply (wf_ne W E1)]|]. split; [auto|]. split; [rewrite map_id; apply Permutation_refl|]. split; [auto|].
      intros HX q Hq'. destruct (E5 HX q Hq') as [K1 K2].
      assert (fst q <> s_nn s) as Hqn by (destruct (slot_lt W K1); lia). rewrite (proj1 (Hq q Hqn)), (proj2 (Hq q Hqn)). auto.
    - exact W.
  Qed.

  Lemma add_edge_over s n nd e ax old od : s_nodes s n = Some nd -> ax < rank (n_t nd) -> nth_error (n_edges nd) ax = Some old -> s_edges s old = Some od ->
    add_edge n e ax true s = (with_node s n (Node (n_t nd) (replace_nth ax e (n_edges nd)) (n_names nd)), Some tt).
  Proof.
    intros H1 H2 H3 H4. unfold add_edge, bind, get_node. rewrite H1. unfold guard. rewrite (proj2 (Nat.ltb_lt _ _)) by exact H2. unfold ret.
    rewrite H3, H4. rewrite orb_true_r. reflexivity.
  Qed.
  Lemma fresh_edges_from_ok n : forall k i m s nd, s_nodes s n = Some nd -> length (n_edges nd) = rank (n_t nd) -> i + k = rank (n_t nd) -> rank (n_t nd) <= m ->
    (forall j e, i <= j -> nth_error (n_edges nd) j = Some e -> s_edges s e <> None) -> exists s', fresh_edges_from n m i k s = (s', Some tt).
  Proof.
    induction k as [|k IH]; intros i m s nd H1 H2 H3 H4 H5; [exists s; reflexivity|]. cbn [fresh_edges_from]. unfold guard.
    rewrite (proj2 (Nat.ltb_lt _ _)) by lia. unfold bind at 1, ret at 1. unfold bind at 1, alloc_edge.
    destruct (nth_error (n_edges nd) i) as [old|] eqn:Eo; [|apply nth_error_None in Eo; lia].
    pose proof (H5 i old (le_n _) Eo) as Ho. set (s1 := St _ _ _ _).
    assert (forall e, s_edges s e <> None -> s_edges s1 e <> None) as Hk.
    { intros e He. unfold s1. cbn [s_edges]. unfold upd. destruct (Nat.eq_dec _ _); [discriminate|exact He]. }
    destruct (s_edges s1 old) as [od|] eqn:Eod; [|exfalso; exact (Hk old Ho Eod)].
    unfold bind. rewrite (@add_edge_over s1 n nd (s_ne s) i old od) by (auto; lia).
    eapply IH; [unfold with_node; cbn [s_nodes]; apply upd_same| | | |]; cbn [n_t n_edges]; [rewrite replace_nth_length; exact H2|lia|exact H4|].
    intros j e Hj He. apply Hk. rewrite nth_error_replace_nth in He. destruct (Nat.eqb_spec j i); [lia|]. apply (H5 j); [lia|exact He].
  Qed.

  (** giving the taken-apart node fresh edges makes the whole state well formed again *)
  Lemma fresh_back n s s0 nd : rel n s s0 -> wf s0 -> s_nodes s n = Some nd -> length (n_edges nd) = rank (n_t nd) -> length (n_names nd) = rank (n_t nd) ->
    (forall e, In e (n_edges nd) -> s_edges s e <> None) ->
    exists s', fresh_edges n s = (s', Some tt) /\ wf s' /\ s_nodes s' n = Some (Node (n_t nd) (seq (s_ne s0) (rank (n_t nd))) (n_names nd)) /\
      (forall m, m <> n -> s_nodes s' m = s_nodes s0 m) /\ (forall e, e < s_ne s0 -> s_edges s' e = s_edges s0 e) /\
      (forall k, k < rank (n_t nd) -> s_edges s' (s_ne s0 + k) = Some (Edge n k None false)).
  Proof.
    intros Hr W Hn Hrk Hnm Hlive.
    assert (exists s', fresh_edges n s = (s', Some tt)) as (s' & Hf).
    { unfold fresh_edges. unfold bind, get_node. rewrite Hn. apply (@fresh_edges_from_ok n _ _ _ _ nd); auto.
      - destruct (n_names nd); cbn in *; lia.
      - intros j e _ He. apply Hlive. eapply nth_error_In. exact He. }
    exists s'. split; [exact Hf|]. destruct (fresh_edges_inv Hn Hf) as (F1 & F2 & F3 & F4). rewrite Hrk in *.
    assert (s_nodes s' n = Some (Node (n_t nd) (seq (s_ne s0) (rank (n_t nd))) (n_names nd))) as G1.
    { rewrite F1, Nat.eqb_refl, (rl_ne Hr). reflexivity. }
    assert (forall m, m <> n -> s_nodes s' m = s_nodes s0 m) as G2.
    { intros m Hm. rewrite F1. destruct (Nat.eqb_spec m n); [contradiction|]. apply (rl_nodes Hr Hm). }
    assert (forall e, e < s_ne s0 -> s_edges s' e = s_edges s0 e) as G3.
    { intros e He. rewrite F4, (rl_ne Hr). rewrite (proj2 (Nat.leb_nle _ _)) by lia. apply (rl_edges Hr). }
    assert (forall k, k < rank (n_t nd) -> s_edges s' (s_ne s0 + k) = Some (Edge n k None false)) as G4.
    { intros k Hk. rewrite F4, (rl_ne Hr). rewrite (proj2 (Nat.leb_le _ _)), (proj2 (Nat.ltb_lt _ _)) by lia. cbn [andb]. do 2 f_equal. lia. }
    split; [|auto]. apply (@wfx_rename _ (fun _ => False) s0 s').
    - intros m md E. destruct (Nat.eq_dec m n) as [->|Hm]; [rewrite G1 in E; injection E as <-; cbn; apply seq_length|]. rewrite (G2 _ Hm) in E. apply (wf_rank W E).
    - intros m md E. rewrite F2. destruct (Nat.eq_dec m n) as [->|Hm]; [apply (rl_lt Hr)|]. rewrite (G2 _ Hm) in E. rewrite (rl_nn Hr). apply (wf_nn W E).
    - intros e ed E. rewrite F3. rewrite F4 in E. destruct (Nat.leb_spec (s_ne s) e); [|lia]. destruct (Nat.ltb_spec e (s_ne s + rank (n_t nd))); [lia|].
      cbn [andb] in E. rewrite (rl_edges Hr) in E. pose proof (wf_ne W E). rewrite (rl_ne Hr). lia.
    - intros [m k] e Hs. cbn [fst snd]. destruct (Nat.eq_dec m n) as [->|Hne].
      + left. unfold slot in Hs. cbn [fst snd] in Hs. rewrite G1 in Hs. cbn [n_edges] in Hs.
        assert (k < rank (n_t nd)) as Hk by (rewrite <- (seq_length (rank (n_t nd)) (s_ne s0)); apply nth_error_Some; congruence).
        rewrite (nth_error_nth' _ 0) in Hs by (rewrite seq_length; exact Hk). rewrite seq_nth in Hs by exact Hk. injection Hs as <-. apply G4. exact Hk.
      + right. assert (forall q, fst q <> n -> slot s' q = slot s0 q /\ dimat s' q = dimat s0 q) as Hq.
        { intros q Hq. unfold slot, dimat. rewrite (G2 _ Hq). auto. }
        rewrite (proj1 (Hq (m, k) Hne)) in Hs. destruct (wf_slot W Hs) as (ed & E1 & E2 & E3 & E4 & E5).
        exists (fun p => p), (m, k), ed, ed. split; [exact Hs|]. split; [reflexivity|]. split; [exact E1|].
        split; [rewrite G3; [exact E1|apply (wf_ne W E1)]|]. split; [auto|]. split; [rewrite map_id; apply Permutation_refl|]. split; [auto|].
        intros HX q Hq'. destruct (E5 HX q Hq') as [K1 K2].
        assert (fst q <> n) as Hqn by (intros <-; rewrite (@no_slot s0 _ q (rl_n Hr) eq_refl) in K1; discriminate). rewrite (proj1 (Hq q Hqn)), (proj2 (Hq q Hqn)). auto.
    - exact W.
  Qed.
End Move.

Section SplitOk.
  Context {R : cjr}.
  Add Ring Rring : (rsr R).
  Notation st := (@st R).
  Implicit Types (s : st) (e f : eid).
  Notation "x <- m ;; k" := (bind m (fun x => k)) (at level 61, m at next level, right associativity).
  Notation "m ;;; k" := (bind m (fun _ => k)) (at level 61, right associativity).

  Definition nm_ok (nms : option (list nat)) (t : tensor R) : Prop := match nms with None => True | Some l => NoDup l /\ length l = rank t end.
  Definition nm_of (nms : option (list nat)) (t : tensor R) : list nat := match nms with None => seq 0 (rank t) | Some l => l end.

  Lemma new_node_total s t nms : nm_ok nms t -> exists s' N, new_node t nms s = (s', Some N).
  Proof.
    intros H. destruct nms as [l|].
    - destruct H as [H1 H2]. apply new_node_ok; assumption.
    - unfold new_node, bind, guard, ret, next_node.
      assert (forall k n i s, exists s' es, alloc_edges n i k s = (s', Some es)) as Ha.
      { induction k as [|k IH]; intros n i s1; cbn [alloc_edges]; [eexists; eexists; reflexivity|]. unfold bind, alloc_edge.
        match goal with |- context [alloc_edges n (S i) k ?x] => destruct (IH n (S i) x) as (s' & es & ->) end. eexists. eexists. reflexivity. }
      destruct (Ha (rank t) (s_nn s) 0 s) as (s' & es & ->). unfold alloc_node. eexists. eexists. reflexivity.
  Qed.

  (** a new node: everything in one lemma *)
  Lemma add_node_step X s t nms : wfx X s -> nm_ok nms t ->
    exists s', new_node t nms s = (s', Some (s_nn s)) /\ wfx X s' /\ s_nodes s (s_nn s) = None /\ s_nn s' = S (s_nn s) /\ s_ne s' = s_ne s + rank t /\
      s_nodes s' (s_nn s) = Some (Node t (seq (s_ne s) (rank t)) (nm_of nms t)) /\
      (forall m, m <> s_nn s -> s_nodes s' m = s_nodes s m) /\ (forall e, e < s_ne s -> s_edges s' e = s_edges s e) /\
      (forall k d, nth_error (shape t) k = Some d -> loose_at s' (s_nn s, k) (s_ne s + k) d) /\
      (forall n e ax d, pend s n e ax d -> pend s' n e ax d).
  Proof.
    intros W Hnm. destruct (new_node_total s Hnm) as (s' & N & H). exists s'.
    destruct (new_node_wfx W H) as (W1 & -> & H2 & H3 & H4 & (nms' & K1 & K2 & K3) & H6 & H7 & H8).
    split; [exact H|]. split; [exact W1|]. split; [exact H2|]. split; [exact H3|]. split; [exact H4|]. split.
    { rewrite K3. do 2 f_equal. destruct nms as [l|]; [apply (K2 l eq_refl)|apply (K1 eq_refl)]. }
    split; [exact H6|]. split; [exact H7|]. split; [exact H8|].
    intros n e ax d Hp. pose proof Hp as (ed & F1 & _). apply (pend_keep Hp).
    - apply H7. apply (wf_ne W F1).
    - intros q Hq. destruct (slot_lt W Hq) as [Hlt _]. unfold slot, dimat. rewrite H6 by lia. auto.
  Qed.

  (** moving all the edges on one side *)
  Lemma move_step n N axf df es X s t nm pre post dpre dpost ne0 : wfx X s -> s_nodes s n = None -> NoDup es ->
    s_nodes s N = Some (Node t (seq ne0 (rank t)) nm) -> shape t = dpre ++ map df es ++ dpost -> pre = seq ne0 (length dpre) -> post = seq (ne0 + length dpre + length es) (length dpost) ->
    (forall k d, nth_error (shape t) k = Some d -> loose_at s (N, k) (ne0 + k) d) ->
    (forall e, In e es -> pend s n e (axf e) (df e)) ->
    exists s', move_edges n N (length dpre) (map axf es) es s = (s', Some tt) /\
      wfx (fun x => X x /\ ~ In x es) s' /\ s_nn s' = s_nn s /\ s_ne s' = s_ne s /\
      s_nodes s' N = Some (Node t (pre ++ es ++ post) nm) /\ (forall m, m <> N -> s_nodes s' m = s_nodes s m) /\
      (forall x, ~ In x es -> s_edges s' x = s_edges s x) /\ (forall q, dimat s' q = dimat s q) /\
      (forall e ax d, ~ In e es -> pend s n e ax d -> pend s' n e ax d).
  Proof.
    intros W Hn HND HN Hsh Hpre Hpost Hl Hp.
    assert (rank t = length dpre + length es + length dpost) as Hrk by (unfold rank; rewrite Hsh, !app_length, map_length; lia).
    assert (seq ne0 (rank t) = pre ++ seq (ne0 + length dpre) (length es) ++ post) as Hseq.
    { rewrite Hrk, Hpre, Hpost, <- Nat.add_assoc, !seq_app, <- Nat.add_assoc. reflexivity. }
    rewrite Hseq in HN.
    destruct (@move_edges_ok R n N axf df es (seq (ne0 + length dpre) (length es)) pre post (length dpre) t nm X s W Hn HND HN) as (s' & K & W' & A1 & A2 & A3 & A4 & A5).
    - rewrite Hpre, seq_length. reflexivity.
    - apply seq_length.
    - exact Hp.
    - intros j f Hj. assert (j < length es) as Hlt by (rewrite <- (seq_length (length es) (ne0 + length dpre)); apply nth_error_Some; congruence).
      rewrite (nth_error_nth' _ 0) in Hj by (rewrite seq_length; exact Hlt). rewrite seq_nth in Hj by exact Hlt. injection Hj as <-.
      destruct (nth_error es j) as [e|] eqn:Ee; [|apply nth_error_None in Ee; lia]. exists e. split; [reflexivity|].
      rewrite <- Nat.add_assoc. apply Hl. rewrite Hsh, nth_error_app2 by lia. rewrite nth_error_app1 by (rewrite map_length; lia).
      replace (length dpre + j - length dpre) with j by lia. apply map_nth_error. exact Ee.
    - exists s'. split; [exact K|]. split; [exact W'|]. split; [exact A1|]. split; [exact A2|]. split; [rewrite A3, Nat.eqb_refl; reflexivity|].
      split; [intros m Hm; rewrite A3; destruct (Nat.eqb_spec m N); [contradiction|reflexivity]|]. split; [exact A4|]. split; [exact A5|].
      intros e ax d He Hpe. apply (pend_keep Hpe); [apply A4; exact He|]. intros [m j] Hq. split; [|apply A5].
      destruct (Nat.eq_dec m N) as [->|Hm]; [exfalso|unfold slot; cbn [fst snd]; rewrite A3; destruct (Nat.eqb_spec m N); [contradiction|reflexivity]].
      assert (j < rank t) as Hj.
      { unfold slot in Hq. cbn [fst snd] in Hq. rewrite HN in Hq. cbn [n_edges] in Hq. rewrite <- Hseq in Hq. rewrite <- (seq_length (rank t) ne0). apply nth_error_Some. congruence. }
      destruct (nth_error (shape t) j) as [dj|] eqn:Ej; [|apply nth_error_None in Ej; unfold rank in Hj; lia].
      destruct (Hl j dj Ej) as (G1 & G2 & _). rewrite G1 in Hq. injection Hq as <-. destruct Hpe as (ed & F1 & _ & _ & F4 & _). rewrite F1 in G2. injection G2 as ->.
      cbn in F4. destruct F4 as [F4|[]]. congruence.
  Qed.

  (** joining the two bond edges *)
  Lemma bond_step s e1 e2 p1 p2 d : wf s -> p1 <> p2 -> loose_at s p1 e1 d -> loose_at s p2 e2 d ->
    exists s', connect e1 e2 s = (s', Some (s_ne s)) /\ wf s' /\ s_nn s' = s_nn s /\ s_ne s' = S (s_ne s) /\
      (forall m, s_nodes s' m = option_map (fun nd => Node (n_t nd) (map (ren2 e1 e2 (s_ne s)) (n_edges nd)) (n_names nd)) (s_nodes s m)) /\
      (forall f, f <> s_ne s -> s_edges s' f = s_edges s f) /\ connect_post s s' e1 e2 (s_ne s) p1 p2.
  Proof.
    intros W Hne (A1 & A2 & A3) (B1 & B2 & B3).
    destruct (proj2 (@connect_total _ s p1 p2 e1 e2 _ _ W A1 B1 A2 B2)) as (s' & g & H); [cbn; split; [reflexivity|]; split; [reflexivity|]; split; [exact Hne|congruence]|].
    destruct (connect_inv W (ex_intro _ _ A1) (ex_intro _ _ B1) H) as (q1 & q2 & C).
    assert (q1 = p1) as -> by (pose proof (dangling_slot W (cp_p1 C) A2 eq_refl) as K; cbn in K; rewrite <- surjective_pairing in K; exact K).
    assert (q2 = p2) as -> by (pose proof (dangling_slot W (cp_p2 C) B2 eq_refl) as K; cbn in K; rewrite <- surjective_pairing in K; exact K).
    pose proof (cp_e C) as ->. exists s'. split; [exact H|]. split; [apply (connect_wf W C)|]. split; [apply (cp_nn C)|]. split; [apply (cp_ne C)|].
    split; [intros m; apply (connect_nodes m W C)|]. split; [apply (cp_edges C)|exact C].
  Qed.

  Lemma map_ren2_id e1 e2 g l : ~ In e1 l -> ~ In e2 l -> map (ren2 e1 e2 g) l = l.
  Proof.
    intros H1 H2. rewrite <- (map_id l) at 2. apply map_ext_in. intros x Hx. unfold ren2.
    destruct (Nat.eqb_spec x e1) as [->|]; [contradiction|]. destruct (Nat.eqb_spec x e2) as [->|]; [contradiction|]. reflexivity.
  Qed.
  Lemma only_slot s p e q : wf s -> s_edges s e = Some (Edge (fst p) (snd p) None false) -> slot s q = Some e -> q = p.
  Proof. intros W H Hq. pose proof (dangling_slot W Hq H eq_refl) as K. cbn in K. rewrite <- surjective_pairing in K. exact K. Qed.
  Lemma edges_other s m nd p e : wf s -> s_edges s e = Some (Edge (fst p) (snd p) None false) -> s_nodes s m = Some nd -> m <> fst p -> ~ In e (n_edges nd).
  Proof.
    intros W H Hm Hne K. apply In_nth_error in K. destruct K as (j & K). assert (slot s (m, j) = Some e) as Q by (unfold slot; cbn; rewrite Hm; exact K).
    apply (only_slot W H) in Q. subst p. cbn in Hne. contradiction.
  Qed.

  Definition split_mid (n : nid) (L Rt : list eid) (tl tr : tensor R) (nms : option (list nat) * option (list nat)) : @M R (nid * nid) :=
    N1 <- new_node tl (fst nms) ;;
    al <- mmap (node_axis n) L ;;
    move_edges n N1 0 al L ;;;
    N2 <- new_node tr (snd nms) ;;
    ar <- mmap (node_axis n) Rt ;;
    move_edges n N2 1 ar Rt ;;;
    e1 <- last_edge N1 ;;
    e2 <- edge_of N2 0 ;;
    connect e1 e2 ;;;
    ret (N1, N2).

  Lemma framed_split_mid n L Rt tl tr nms : framed n (split_mid n L Rt tl tr nms).
  Proof.
    apply framed_bind; [apply framed_new_node|]. intros N1. apply framed_bind; [apply framed_mmap; intros x; apply framed_node_axis|]. intros al.
    apply framed_bind; [apply framed_move_edges|]. intros _. apply framed_bind; [apply framed_new_node|]. intros N2.
    apply framed_bind; [apply framed_mmap; intros x; apply framed_node_axis|]. intros ar. apply framed_bind; [apply framed_move_edges|]. intros _.
    apply framed_bind; [apply framed_last_edge|]. intros e1. apply framed_bind; [apply framed_edge_of|]. intros e2.
    apply framed_bind; [apply framed_connect|]. intros _. apply framed_ret.
  Qed.
  Lemma split_with_eq n L Rt tl tr nms s : split_with n L Rt tl tr nms s = bind (split_mid n L Rt tl tr nms) (fun NN => fresh_edges n ;;; ret NN) s.
  Proof.
    unfold split_with, split_mid, bind.
    destruct (new_node tl (fst nms) s) as [s1 [N1|]]; [|reflexivity]. destruct (mmap (node_axis n) L s1) as [s2 [al|]]; [|reflexivity].
    destruct (move_edges n N1 0 al L s2) as [s3 [u|]]; [|reflexivity]. destruct (new_node tr (snd nms) s3) as [s4 [N2|]]; [|reflexivity].
    destruct (mmap (node_axis n) Rt s4) as [s5 [ar|]]; [|reflexivity]. destruct (move_edges n N2 1 ar Rt s5) as [s6 [u'|]]; [|reflexivity].
    destruct (last_edge N1 s6) as [s7 [e1|]]; [|reflexivity]. destruct (edge_of N2 0 s7) as [s8 [e2|]]; [|reflexivity].
    destruct (connect e1 e2 s8) as [s9 [g|]]; reflexivity.
  Qed.

  Record mid_post s s' (n : nid) (L Rt : list eid) (tl tr : tensor R) nms (N1 N2 : nid) (g : eid) : Prop := {
    mp_wf : wf s'; mp_N1 : s_nn s <= N1; mp_N2 : s_nn s <= N2; mp_12 : N1 <> N2; mp_g : s_ne s <= g;
    mp_n1 : s_nodes s' N1 = Some (Node tl (L ++ [g]) (nm_of (fst nms) tl));
    mp_n2 : s_nodes s' N2 = Some (Node tr (g :: Rt) (nm_of (snd nms) tr));
    mp_other : forall m, m <> N1 -> m <> N2 -> s_nodes s' m = s_nodes s m
  }.

  Lemma split_mid_ok n L Rt tl tr nms axf df k s : wfx (fun e => In e (L ++ Rt)) s -> s_nodes s n = None -> n < s_nn s -> NoDup (L ++ Rt) ->
    (forall e, In e (L ++ Rt) -> pend s n e (axf e) (df e)) -> shape tl = map df L ++ [k] -> shape tr = k :: map df Rt ->
    nm_ok (fst nms) tl -> nm_ok (snd nms) tr ->
    exists s' N1 N2 g, split_mid n L Rt tl tr nms s = (s', Some (N1, N2)) /\ mid_post s s' n L Rt tl tr nms N1 N2 g.
  Proof.
    intros W Hn Hnlt HND Hp Htl Htr Hn1 Hn2. apply NoDup_app_iff in HND. destruct HND as (HL & HR & HLR).
    assert (forall e, In e (L ++ Rt) -> e < s_ne s) as Hlt by (intros e He; destruct (Hp e He) as (ed & E & _); apply (wf_ne W E)).
    assert (rank tl = length L + 1) as Hr1 by (unfold rank; rewrite Htl, app_length, map_length; reflexivity).
    assert (rank tr = 1 + length Rt) as Hr2 by (unfold rank; rewrite Htr; cbn; rewrite map_length; reflexivity).
    (* the left node *)
    destruct (add_node_step W Hn1) as (s1 & K1 & W1 & F1 & B1 & C1 & D1 & E1 & G1 & H1 & I1). set (N1 := s_nn s) in *.
    assert (N1 <> n) as HN1 by (unfold N1; lia).
    assert (s_nodes s1 n = None) as Hns1 by (rewrite E1 by congruence; exact Hn).
    destruct (@move_step n N1 axf df L _ s1 tl _ [] [s_ne s + length L] [] [k] (s_ne s) W1 Hns1 HL D1) as (s2 & K2 & W2 & B2 & C2 & D2 & E2 & G2 & H2 & I2);
      [exact Htl|reflexivity|cbn; f_equal; lia|exact H1|intros e He; apply I1, Hp, in_or_app; left; exact He|].
    cbn [app length] in *.
    (* the right node *)
    destruct (add_node_step W2 Hn2) as (s3 & K3 & W3 & F3 & B3 & C3 & D3 & E3 & G3 & H3 & I3). set (N2 := s_nn s2) in *.
    assert (N1 < N2) as H12 by (unfold N1, N2; lia).
    assert (s_nodes s3 n = None) as Hns3.
    { rewrite E3 by lia. rewrite E2 by congruence. exact Hns1. }
    destruct (@move_step n N2 axf df Rt _ s3 tr _ [s_ne s2] [] [k] [] (s_ne s2) W3 Hns3 HR D3) as (s4 & K4 & W4 & B4 & C4 & D4 & E4 & G4 & H4 & I4);
      [rewrite app_nil_r; exact Htr|reflexivity|reflexivity|exact H3|intros e He; apply I3, I2; [intros Q; exact (HLR _ Q He)|]; apply I1, Hp, in_or_app; right; exact He|].
    cbn [app length] in *. rewrite app_nil_r in D4.
    assert (wf s4) as W4'.
    { apply (wfx_weaken (X := fun x => (In x (L ++ Rt) /\ ~ In x L) /\ ~ In x Rt)); [|exact W4]. intros x [[A B] C]. apply in_app_or in A. tauto. }
    (* the bond *)
    set (e1 := s_ne s + length L) in *. set (e2 := s_ne s2) in *.
    assert (nth_error (shape tl) (length L) = Some k) as Hk1 by (rewrite Htl, nth_error_app2 by (rewrite map_length; lia); rewrite map_length, Nat.sub_diag; reflexivity).
    assert (nth_error (shape tr) 0 = Some k) as Hk2 by (rewrite Htr; reflexivity).
    assert (s_nodes s4 N1 = Some (Node tl (L ++ [e1]) (nm_of (fst nms) tl))) as Q1 by (rewrite E4, E3 by lia; exact D2).
    assert (~ In e1 (L ++ Rt) /\ ~ In e2 (L ++ Rt)) as [He1 He2] by (split; intros Q; apply Hlt in Q; unfold e1, e2 in Q; lia).
    rewrite in_app_iff in He1, He2.
    assert (loose_at s4 (N1, length L) e1 k) as L1.
    { destruct (H1 _ _ Hk1) as (A & B & C). split; [|split].
      - unfold slot. cbn [fst snd]. rewrite Q1. cbn [n_edges]. rewrite nth_error_app2, Nat.sub_diag by lia. reflexivity.
      - rewrite G4, G3, G2 by (try tauto; unfold e1; lia). exact B.
      - unfold dimat. cbn [fst snd]. rewrite Q1. exact Hk1. }
    assert (loose_at s4 (N2, 0) e2 k) as L2.
    { destruct (H3 _ _ Hk2) as (A & B & C). rewrite Nat.add_0_r in *. fold e2 in A, B. split; [|split].
      - unfold slot. cbn [fst snd]. rewrite D4. reflexivity.
      - rewrite G4 by tauto. exact B.
      - rewrite H4. exact C. }
    destruct (@bond_step s4 e1 e2 (N1, length L) (N2, 0) k W4') as (s5 & K5 & W5 & B5 & C5 & D5 & E5 & P5); [intros E; injection E as E _; lia|exact L1|exact L2|].
    exists s5, N1, N2, (s_ne s4). split.
    { unfold split_mid. unfold bind at 1. rewrite K1. unfold bind at 1.
      rewrite (@node_axes_ok R s1 n axf df L) by (intros e He; apply I1, Hp, in_or_app; left; exact He).
      unfold bind at 1. rewrite K2. unfold bind at 1. rewrite K3. unfold bind at 1.
      rewrite (@node_axes_ok R s3 n axf df Rt) by (intros e He; apply I3, I2; [intros Q; exact (HLR _ Q He)|]; apply I1, Hp, in_or_app; right; exact He).
      unfold bind at 1. rewrite K4. unfold bind at 1. unfold last_edge, get_node. unfold bind at 1. rewrite Q1. cbn [n_edges]. rewrite rev_unit. unfold ret at 1.
      unfold bind at 1. unfold edge_of, get_node. unfold bind at 1. rewrite D4. cbn [n_edges nth_error]. unfold ret at 1. unfold bind. rewrite K5. reflexivity. }
    split.
    - exact W5.
    - lia.
    - lia.
    - lia.
    - lia.
    - rewrite D5, Q1. cbn [option_map n_t n_edges n_names]. do 2 f_equal. rewrite map_app, map_ren2_id by tauto. cbn. unfold ren2. rewrite Nat.eqb_refl. reflexivity.
    - rewrite D5, D4. cbn [option_map n_t n_edges n_names map]. do 2 f_equal. rewrite map_ren2_id by tauto. unfold ren2. rewrite Nat.eqb_refl, orb_true_r. reflexivity.
    - intros m M1 M2. rewrite D5, E4, E3, E2, E1 by assumption. destruct (s_nodes s m) as [[t es nm]|] eqn:Em; [|reflexivity]. cbn [option_map n_t n_edges n_names].
      assert (s_nodes s4 m = Some (Node t es nm)) as Em4 by (rewrite E4, E3, E2, E1 by assumption; exact Em).
      do 2 f_equal. apply map_ren2_id.
      + apply (@edges_other s4 m _ (N1, length L) e1 W4' (proj1 (proj2 L1)) Em4 M1).
      + apply (@edges_other s4 m _ (N2, 0) e2 W4' (proj1 (proj2 L2)) Em4 M2).
  Qed.

  (** ** The node that is split *)
  Lemma node_edge_slot s n nd e : s_nodes s n = Some nd -> In e (n_edges nd) -> slot s (n, nindex e (n_edges nd)) = Some e.
  Proof.
    intros Hn He. unfold slot. cbn [fst snd]. rewrite Hn. rewrite (nth_error_nth' _ 0) by (apply index_of_lt; exact He). f_equal. apply nth_index_of. exact He.
  Qed.
  Lemma node_on s n nd e : s_nodes s n = Some nd -> on s n e <-> In e (n_edges nd).
  Proof.
    intros Hn. split.
    - intros (k & Hk). unfold slot in Hk. cbn in Hk. rewrite Hn in Hk. eapply nth_error_In. exact Hk.
    - intros He. eexists. apply (node_edge_slot Hn He).
  Qed.
  Lemma node_pend s n nd e : wf s -> s_nodes s n = Some nd -> NoDup (n_edges nd) -> In e (n_edges nd) -> pend (drop n s) n e (nindex e (n_edges nd)) (edim s e).
  Proof.
    intros W Hn HN He. pose proof (node_edge_slot Hn He) as Hs. pose proof (edim_dimat W Hs) as Hd.
    destruct (wf_slot W Hs) as (ed & E1 & E2 & E3 & E4 & E5). exists ed. split; [exact E1|]. split; [exact E2|]. split; [exact E4|]. split; [exact E3|].
    intros q Hq Hne. destruct (E5 (fun HF => HF) q Hq) as [Q1 Q2].
    assert (fst q <> n) as Hqn.
    { intros E. destruct q as [m j]. cbn in E. subst m. apply Hne. f_equal. unfold slot in Q1. cbn in Q1. rewrite Hn in Q1.
      assert (j < length (n_edges nd)) as Hj by (apply nth_error_Some; congruence). rewrite (nth_error_nth' _ 0 Hj) in Q1. injection Q1 as <-. symmetry. apply index_of_nth; assumption. }
    split; [exact Hqn|]. rewrite slot_drop_other, dimat_drop_other by exact Hqn. split; [exact Q1|congruence].
  Qed.

  Section Node.
    Variables (s : st) (n : nid) (nd : @node R) (L Rt : list eid).
    Hypothesis (W : wf s) (Hn : s_nodes s n = Some nd) (HND : NoDup (L ++ Rt)) (HP : Permutation (L ++ Rt) (n_edges nd)).

    Definition axis_of (e : eid) : nat := nindex e (n_edges nd).
    Lemma HNe : NoDup (n_edges nd).
    Proof using HND HP. apply (Permutation_NoDup HP HND). Qed.
    Lemma HIn e : In e (L ++ Rt) <-> In e (n_edges nd).
    Proof using HP. split; apply Permutation_in; [exact HP|apply Permutation_sym; exact HP]. Qed.

    Lemma axes_perm : is_perm (rank (n_t nd)) (map axis_of (L ++ Rt)).
    Proof using W Hn HND HP.
      rewrite <- (wf_rank W Hn). apply is_perm_intro.
      - rewrite map_length. apply Permutation_length. exact HP.
      - apply NoDup_map_in; [|exact HND]. intros a b Ha Hb E. unfold axis_of in E.
        rewrite <- (nth_index_of Nat.eq_dec a (n_edges nd) 0), <- (nth_index_of Nat.eq_dec b (n_edges nd) 0), E by (apply HIn; assumption). reflexivity.
      - intros i Hi. apply in_map_iff in Hi. destruct Hi as (e & <- & He). apply index_of_lt. apply HIn. exact He.
    Qed.
    Lemma axes_gather : gather 0 (n_edges nd) (map axis_of (L ++ Rt)) = L ++ Rt.
    Proof using HP.
      unfold gather. rewrite map_map. rewrite <- (map_id (L ++ Rt)) at 2. apply map_ext_in. intros e He. apply nth_index_of. apply HIn. exact He.
    Qed.
    Definition ordered : tensor R := transpose (n_t nd) (map axis_of (L ++ Rt)).
    Lemma ordered_shape : shape ordered = map (edim s) L ++ map (edim s) Rt.
    Proof using W Hn HP.
      unfold ordered, transpose. cbn [shape]. pose proof (wf_fits W Hn) as F. unfold fits in F. cbn [fst snd] in F. rewrite F, <- map_app.
      transitivity (map (edim s) (gather 0 (n_edges nd) (map axis_of (L ++ Rt)))); [symmetry; apply map_gather|rewrite axes_gather; reflexivity].
      intros i Hi. apply in_map_iff in Hi. destruct Hi as (e & <- & He). apply index_of_lt. apply HIn. exact He.
    Qed.
    Lemma ordered_elt (b : eid -> nat) : elt ordered (map b L ++ map b Rt) = elt (n_t nd) (map b (n_edges nd)).
    Proof using W Hn HND HP.
      pose proof (@fval_transpose nat R (n_t nd) (n_edges nd) (map axis_of (L ++ Rt)) 0 b) as E. rewrite (wf_rank W Hn) in E. specialize (E axes_perm).
      rewrite axes_gather in E. unfold fval in E. cbn [fst snd] in E. rewrite <- map_app. exact E.
    Qed.

    Lemma own_axis_ok e : In e (n_edges nd) -> own_axis n e s = (s, Some (axis_of e)).
    Proof using W Hn HND HP.
      intros He. destruct (node_pend W Hn HNe He) as (ed & E1 & E2 & E3 & E4 & E5). cbn in E1. fold (axis_of e) in *.
      unfold own_axis, bind, get_edge. rewrite E1, E2. destruct ed as [n1 a1 [p2|] ds]; unfold ends in *; cbn in *.
      - destruct (Nat.eqb_spec n1 n) as [->|Hne].
        + destruct E4 as [E4|[->|[]]]; [injection E4 as ->; reflexivity|].
          destruct (slot_eqb_spec (n, a1) (n, axis_of e)) as [K|K]; [injection K as ->; reflexivity|].
          destruct (E5 (n, a1) (or_introl eq_refl) K) as [Q _]. cbn in Q. contradiction.
        + destruct E4 as [E4|[->|[]]]; [congruence|]. rewrite Nat.eqb_refl. reflexivity.
      - destruct E4 as [E4|[]]. injection E4 as -> ->. rewrite Nat.eqb_refl. reflexivity.
    Qed.
    Lemma order_ok : tensor_from_edge_order n (L ++ Rt) s = (s, Some ordered).
    Proof using W Hn HND HP.
      unfold tensor_from_edge_order, bind at 1, get_node. rewrite Hn.
      assert (forall es, (forall e, In e es -> In e (n_edges nd)) -> mmap (own_axis n) es s = (s, Some (map axis_of es))) as Hm.
      { induction es as [|e es IH]; intros H; cbn [mmap map]; [reflexivity|]. unfold bind. rewrite own_axis_ok by (apply H; left; reflexivity).
        rewrite IH by (intros x Hx; apply H; right; exact Hx). reflexivity. }
      unfold bind at 1. rewrite Hm by (intros e He; apply HIn; exact He). rewrite (proj2 (is_permb_spec _ _) axes_perm). reflexivity.
    Qed.

    Lemma drop_ready : wfx (fun e => In e (L ++ Rt)) (drop n s) /\ s_nodes (drop n s) n = None /\ n < s_nn (drop n s) /\
      forall e, In e (L ++ Rt) -> pend (drop n s) n e (axis_of e) (edim s e).
    Proof using W Hn HND HP.
      split; [|split; [|split]].
      - apply (wfx_weaken (X := on s n)); [|apply wf_drop; exact W]. intros e He. apply HIn. apply (node_on e Hn). exact He.
      - cbn. rewrite Nat.eqb_refl. reflexivity.
      - apply (wf_nn W Hn).
      - intros e He. apply node_pend; [exact W|exact Hn|exact HNe|apply HIn; exact He].
    Qed.

    (** axis names *)
    Definition bond_names (lb rb : option nat) : option (list nat) * option (list nat) :=
      match n_names nd, lb, rb with
      | _ :: _, Some x, Some y => (Some (gather 0 (n_names nd) (map axis_of L) ++ [x]), Some (y :: gather 0 (n_names nd) (map axis_of Rt)))
      | _, _, _ => (None, None)
      end.
    Lemma names_ok lb rb : length (n_names nd) = rank (n_t nd) -> split_names n L Rt lb rb s = (s, Some (bond_names lb rb)).
    Proof using W Hn HND HP.
      intros Hnm. unfold split_names, bind at 1, get_node. rewrite Hn. unfold bond_names. destruct (n_names nd) as [|n0 nl] eqn:En; [reflexivity|]. rewrite <- En in *.
      destruct lb as [x|]; [|reflexivity]. destruct rb as [y|]; [|reflexivity].
      assert (forall es, (forall e, In e es -> In e (L ++ Rt)) -> mmap (node_axis n) es s = (s, Some (map axis_of es))) as Hm.
      { intros es. induction es as [|e es IH]; intros H; cbn [mmap map]; [reflexivity|]. unfold bind.
        pose proof (node_axis_ok (proj2 (proj2 (proj2 drop_ready)) e (H e (or_introl eq_refl)))) as K.
        assert (node_axis n e s = (s, Some (axis_of e))) as ->.
        { unfold node_axis, bind, get_edge in K |- *. cbn [drop s_edges] in K. destruct (s_edges s e) as [ed|]; [|discriminate]. destruct (e_dis ed); [discriminate|].
          destruct (Nat.eqb (e_n1 ed) n); [|destruct (e_2 ed) as [[n2 a2]|]]; unfold ret in *; injection K as K; congruence. }
        rewrite IH by (intros z Hz; apply H; right; exact Hz). reflexivity. }
      assert (forall es, (forall e, In e es -> In e (L ++ Rt)) -> forallb (fun i => Nat.ltb i (length (n_names nd))) (map axis_of es) = true) as Hb.
      { intros es H. apply forallb_forall. intros i Hi. apply in_map_iff in Hi. destruct Hi as (e & <- & He). apply Nat.ltb_lt. rewrite Hnm, <- (wf_rank W Hn). apply index_of_lt. apply HIn. apply H. exact He. }
      unfold bind at 1. rewrite Hm by (intros e He; apply in_or_app; left; exact He). unfold bind at 1. unfold names_at, guard.
      rewrite Hb by (intros e He; apply in_or_app; left; exact He). unfold bind at 1. unfold ret at 1. unfold ret at 1.
      unfold bind at 1. rewrite Hm by (intros e He; apply in_or_app; right; exact He). unfold bind at 1.
      rewrite Hb by (intros e He; apply in_or_app; right; exact He). reflexivity.
    Qed.
    Lemma bond_names_ok lb rb (tl tr : tensor R) : named s n -> rank tl = length L + 1 -> rank tr = 1 + length Rt ->
      (forall x, lb = Some x \/ rb = Some x -> ~ In x (n_names nd)) -> nm_ok (fst (bond_names lb rb)) tl /\ nm_ok (snd (bond_names lb rb)) tr.
    Proof using W Hn HND HP.
      intros Hnm Hl Hr Hx. destruct (Hnm nd Hn) as [HN Hlen]. unfold bond_names. destruct (n_names nd) as [|n0 nl] eqn:En; [split; exact I|]. rewrite <- En in *.
      destruct lb as [x|]; [|split; exact I]. destruct rb as [y|]; [|split; exact I].
      assert (Permutation (gather 0 (n_names nd) (map axis_of L) ++ gather 0 (n_names nd) (map axis_of Rt)) (n_names nd)) as HPn.
      { assert (is_perm (length (n_names nd)) (map axis_of (L ++ Rt))) as Hpp by (rewrite Hlen; apply axes_perm). apply (gather_perm 0) in Hpp. unfold gather in *. rewrite !map_app in Hpp. exact Hpp. }
      pose proof (Permutation_NoDup (Permutation_sym HPn) HN) as HN2. apply NoDup_app_iff in HN2. destruct HN2 as (N1 & N2 & _).
      cbn [fst snd nm_ok]. split; split.
      - apply NoDup_app_iff. split; [exact N1|]. split; [repeat constructor; intros []|]. intros z Hz [<-|[]]. apply (Hx x (or_introl eq_refl)).
        apply (Permutation_in _ HPn). apply in_or_app. left. exact Hz.
      - rewrite app_length, gather_length, map_length, Hl. reflexivity.
      - constructor; [|exact N2]. intros Hz. apply (Hx y (or_intror eq_refl)). apply (Permutation_in _ HPn). apply in_or_app. right. exact Hz.
      - cbn. rewrite gather_length, map_length, Hr. reflexivity.
    Qed.

    (** ** The value of the network *)
    Definition prod_ok (k : nat) (T tl tr : tensor R) : Prop := forall b : eid -> nat, (forall e, In e (n_edges nd) -> b e < edim s e) ->
      elt T (map b (n_edges nd)) = nsum k (fun j => elt tl (map b L ++ [j]) *! elt tr (j :: map b Rt)).

    Lemma part_value s' Ns C T S a : wf s' -> (forall m, In m Ns -> s_nn s <= m) ->
      Permutation (net_labels (net_of s' Ns)) (C ++ C ++ n_edges nd) -> NoDup C -> (forall x, In x C -> s_ne s <= x) ->
      (forall m md, m <> n -> s_nodes s m = Some md -> s_nodes s' m = Some md) -> (forall e, In e (n_edges nd) -> edim s' e = edim s e) ->
      ~ In n S -> (forall m, In m S -> is_node s m) -> open_ok s (n :: S) a ->
      (forall b : eid -> nat, (forall e, In e (n_edges nd) -> b e < edim s e) -> elt T (map b (n_edges nd)) = esum Nat.eq_dec (edim s') C (netprod (net_of s' Ns)) b) ->
      value Nat.eq_dec (edim s) ((T, n_edges nd) :: net_of s S) a = netval s' (Ns ++ S) a.
    Proof using W Hn.
      intros W' HNs HPl HC HCf Hother Hdim HnS HS Ho HT.
      assert (net_of s' S = net_of s S) as HeqS.
      { apply map_ext_in. intros m Hm. destruct (is_node_Some (HS m Hm)) as (md & Em). unfold fac. rewrite Em, (Hother m md); [reflexivity| |exact Em]. intros ->. contradiction. }
      assert (forall x, In x (net_labels (net_of s S)) -> x < s_ne s /\ edim s x = edim s' x) as HlS.
      { intros x Hx. apply (In_net_labels _ _ W) in Hx. destruct Hx as (m & k & Hm & Hk). split; [apply (slot_lt W Hk)|].
        assert (s_nodes s' m = s_nodes s m) as Em.
        { destruct (is_node_Some (HS m Hm)) as (md & Em). rewrite Em. apply Hother; [intros ->; contradiction|exact Em]. }
        assert (slot s' (m, k) = Some x) as Hk' by (unfold slot in *; cbn [fst snd] in *; rewrite Em; exact Hk).
        pose proof (edim_dimat W Hk) as A. pose proof (edim_dimat W' Hk') as B. unfold dimat in A, B. cbn [fst snd] in A, B. rewrite Em in B. congruence. }
      assert (forall x, In x (n_edges nd) -> x < s_ne s) as HlN by (intros x Hx; apply (slot_lt W (node_edge_slot Hn Hx))).
      unfold netval. symmetry. unfold net_of at 1. rewrite map_app. fold (net_of s' Ns) (net_of s' S). rewrite HeqS.
      rewrite (@value_ext_dim nat Nat.eq_dec R (edim s) (edim s') ((T, n_edges nd) :: net_of s S) a).
      2:{ intros x Hx. rewrite net_labels_cons in Hx. cbn [snd] in Hx. apply in_app_or in Hx. destruct Hx as [Hx|Hx]; [symmetry; apply Hdim; exact Hx|apply HlS; exact Hx]. }
      apply (@value_contract nat Nat.eq_dec R (edim s') _ (net_of s' Ns) (net_of s S) (T, n_edges nd) C a).
      - reflexivity.
      - exact HPl.
      - exact HC.
      - intros x Hx K. apply HCf in Hx. apply HlN in K. lia.
      - intros x Hx K. apply HCf in Hx. apply HlS in K. lia.
      - intros b B1 B2. unfold fval. cbn [fst snd]. apply HT. intros e He.
        destruct (in_dec Nat.eq_dec e (repeated Nat.eq_dec (net_labels ((T, n_edges nd) :: net_of s S)))) as [K|K].
        + rewrite <- (Hdim e He). apply B2. exact K.
        + rewrite (B1 e K). apply Ho. cbn [net_of map]. fold (net_of s S). rewrite (fac_node Hn). rewrite In_repeated in K. rewrite !net_labels_cons in *. cbn [snd] in *.
          assert (0 < count_occ Nat.eq_dec (n_edges nd ++ net_labels (net_of s S)) e) by (apply count_occ_In; apply in_or_app; left; exact He). lia.
    Qed.

    Record split_post s' (tl tr : tensor R) nms (N1 N2 : nid) (g : eid) : Prop := {
      sp_wf : wf s'; sp_N1 : ~ is_node s N1; sp_N2 : ~ is_node s N2; sp_12 : N1 <> N2; sp_g : s_ne s <= g;
      sp_n1 : s_nodes s' N1 = Some (Node tl (L ++ [g]) (nm_of (fst nms) tl));
      sp_n2 : s_nodes s' N2 = Some (Node tr (g :: Rt) (nm_of (snd nms) tr));
      sp_other : forall m, m <> N1 -> m <> N2 -> m <> n -> s_nodes s' m = s_nodes s m;
      sp_n : exists fs, s_nodes s' n = Some (Node (n_t nd) fs (n_names nd)) /\ forall f, In f fs -> s_ne s <= f /\ open_on s' n f;
      sp_value : forall k T S a, shape tl = map (edim s) L ++ [k] -> ~ In n S -> (forall m, In m S -> is_node s m) -> open_ok s (n :: S) a -> prod_ok k T tl tr ->
        value Nat.eq_dec (edim s) ((T, n_edges nd) :: net_of s S) a = netval s' (N1 :: N2 :: S) a
    }.

    Lemma open_new s1 m k e : wf s1 -> slot s1 (m, k) = Some e -> s_edges s1 e = Some (Edge m k None false) -> open_on s1 m e.
    Proof using. clear. intros W1 Hs He. exists k. split; [exact Hs|]. intros q Hq. apply (only_slot (p := (m, k)) W1 He Hq). Qed.

    Lemma nth_error_seq a b k e : nth_error (seq a b) k = Some e -> k < b /\ e = a + k.
    Proof using.
      clear. intros H. assert (k < b) as Hk by (rewrite <- (seq_length b a); apply nth_error_Some; congruence).
      split; [exact Hk|]. rewrite (nth_error_nth' _ 0) in H by (rewrite seq_length; exact Hk). rewrite seq_nth in H by exact Hk. congruence.
    Qed.

    Lemma edim_at s1 N t es nm j e d : wf s1 -> s_nodes s1 N = Some (Node t es nm) -> nth_error es j = Some e -> nth_error (shape t) j = Some d -> edim s1 e = d.
    Proof using.
      clear. intros W1 HN Hj Hd. assert (slot s1 (N, j) = Some e) as Hs by (unfold slot; cbn; rewrite HN; exact Hj).
      pose proof (edim_dimat W1 Hs) as E. unfold dimat in E. cbn in E. rewrite HN in E. cbn in E. congruence.
    Qed.

    Lemma split_with_ok tl tr nms k : named s n -> shape tl = map (edim s) L ++ [k] -> shape tr = k :: map (edim s) Rt -> nm_ok (fst nms) tl -> nm_ok (snd nms) tr ->
      exists s' N1 N2 g, split_with n L Rt tl tr nms s = (s', Some (N1, N2)) /\ split_post s' tl tr nms N1 N2 g.
    Proof using W Hn HND HP.
      intros Hnm Htl Htr Hm1 Hm2. destruct drop_ready as (D1 & D2 & D3 & D4).
      destruct (split_mid_ok D1 D2 D3 HND D4 Htl Htr Hm1 Hm2) as (s0' & N1 & N2 & g & K & P).
      destruct (@framed_split_mid n L Rt tl tr nms s (drop n s) s0' (N1, N2) (@drop_rel R n s D3) K) as (s1 & K1 & Hrel & Hn1).
      rewrite Hn in Hn1. destruct (Hnm nd Hn) as [_ Hlen].
      assert (forall e, In e (n_edges nd) -> exists N j, slot s0' (N, j) = Some e) as Hmoved.
      { intros e He. apply HIn in He. apply in_app_or in He. destruct He as [He|He]; apply In_nth_error in He; destruct He as (j & Hj).
        - exists N1, j. unfold slot. cbn. rewrite (mp_n1 P). cbn. rewrite nth_error_app1; [exact Hj|apply nth_error_Some; congruence].
        - exists N2, (S j). unfold slot. cbn. rewrite (mp_n2 P). exact Hj. }
      destruct (@fresh_back R n s1 s0' nd Hrel (mp_wf P) Hn1 (wf_rank W Hn) Hlen) as (s' & K2 & W' & F1 & F2 & F3 & F4).
      { intros e He. destruct (Hmoved e He) as (N & j & Hs). destruct (wf_slot (mp_wf P) Hs) as (ed & E & _). rewrite (rl_edges Hrel), E. discriminate. }
      exists s', N1, N2, g. split.
      { rewrite split_with_eq. unfold bind. rewrite K1, K2. reflexivity. }
      assert (n <> N1 /\ n <> N2) as [Hn_1 Hn_2] by (pose proof (mp_N1 P); pose proof (mp_N2 P); cbn in *; lia).
      assert (s_nodes s' N1 = Some (Node tl (L ++ [g]) (nm_of (fst nms) tl))) as G1 by (rewrite F2 by congruence; apply (mp_n1 P)).
      assert (s_nodes s' N2 = Some (Node tr (g :: Rt) (nm_of (snd nms) tr))) as G2 by (rewrite F2 by congruence; apply (mp_n2 P)).
      assert (forall m, m <> N1 -> m <> N2 -> m <> n -> s_nodes s' m = s_nodes s m) as G3.
      { intros m M1 M2 M3. rewrite F2 by exact M3. rewrite (mp_other P M1 M2). cbn. destruct (Nat.eqb_spec m n); [contradiction|reflexivity]. }
      assert (forall m, s_nn s <= m -> ~ is_node s m) as Hnew.
      { intros m Hm Hi. destruct (is_node_Some Hi) as (md & Em). pose proof (wf_nn W Em). lia. }
      assert (forall m md, m <> n -> s_nodes s m = Some md -> s_nodes s' m = Some md) as G4.
      { intros m md Hm Em. pose proof (wf_nn W Em). rewrite G3; [exact Em| | |exact Hm]; [pose proof (mp_N1 P)|pose proof (mp_N2 P)]; cbn in *; lia. }
      assert (s_ne s <= s_ne s0') as Hmono.
      { assert (slot s0' (N2, 0) = Some g) as Hg by (unfold slot; cbn; rewrite (mp_n2 P); reflexivity). pose proof (slot_lt (mp_wf P) Hg). pose proof (mp_g P). cbn in *. lia. }
      split; auto.
      - apply Hnew. apply (mp_N1 P).
      - apply Hnew. apply (mp_N2 P).
      - apply (mp_12 P).
      - apply (mp_g P).
      - exists (seq (s_ne s0') (rank (n_t nd))). split; [exact F1|]. intros f Hf. apply In_nth_error in Hf. destruct Hf as (j & Hj).
        assert (slot s' (n, j) = Some f) as Hs by (unfold slot; cbn; rewrite F1; exact Hj). apply nth_error_seq in Hj. destruct Hj as [Hj ->]. split; [lia|].
        apply (open_new W' Hs). apply F4. exact Hj.
      - intros k' T S a Hk' HnS HS Ho HT. assert (k' = k) as -> by (rewrite Htl in Hk'; apply app_inv_head in Hk'; congruence).
        assert (edim s' g = k) as Hg by (apply (@edim_at s' N2 _ _ _ 0 g k W' G2 eq_refl); rewrite Htr; reflexivity).
        apply (@part_value s' [N1; N2] [g] T S a); auto.
        + intros m [<-|[<-|[]]]; [apply (mp_N1 P)|apply (mp_N2 P)].
        + cbn [net_of map]. rewrite (fac_node G1), (fac_node G2), !net_labels_cons. cbn [snd n_edges net_labels flat_map]. rewrite app_nil_r, <- app_assoc. cbn [app].
          rewrite <- Permutation_middle. apply perm_skip. rewrite <- Permutation_middle. apply perm_skip. exact HP.
        + repeat constructor. intros [].
        + intros x [<-|[]]. apply (mp_g P).
        + intros e He. apply HIn in He. apply in_app_or in He. destruct He as [He|He]; apply In_nth_error in He; destruct He as (j & Hj).
          * apply (@edim_at s' N1 _ _ _ j e _ W' G1); [rewrite nth_error_app1; [exact Hj|apply nth_error_Some; congruence]|].
            rewrite Htl, nth_error_app1 by (rewrite map_length; apply nth_error_Some; congruence). apply map_nth_error. exact Hj.
          * apply (@edim_at s' N2 _ _ _ (Datatypes.S j) e _ W' G2); [exact Hj|]. rewrite Htr. cbn [nth_error]. apply map_nth_error. exact Hj.
        + intros b Hb. rewrite (HT b Hb). rewrite esum_cons. rewrite Hg. apply nsum_ext. intros j Hj. rewrite esum_nil.
          cbn [net_of map]. rewrite (fac_node G1), (fac_node G2). unfold netprod, lprod. cbn [fold_right map]. unfold fval. cbn [fst snd n_t n_edges].
          assert (forall l, ~ In g l -> map (upd Nat.eq_dec b g j) l = map b l) as Hu.
          { intros l Hl. apply map_ext_in. intros x Hx. apply upd_other. intros ->. contradiction. }
          assert (~ In g (L ++ Rt)) as Hgn.
          { intros Q. apply HIn in Q. pose proof (slot_lt W (node_edge_slot Hn Q)). pose proof (mp_g P). cbn in *. lia. }
          rewrite in_app_iff in Hgn. rewrite map_app. cbn [map]. rewrite !Hu, upd_same by tauto. ring.
    Qed.

    Lemma fs_ordered : firstn (length L) (shape ordered) = map (edim s) L /\ skipn (length L) (shape ordered) = map (edim s) Rt.
    Proof using W Hn HP.
      rewrite ordered_shape. replace (length L) with (length (map (edim s) L)) by apply map_length.
      rewrite firstn_app, skipn_app, firstn_all, skipn_all, Nat.sub_diag. cbn. rewrite app_nil_r. auto.
    Qed.
    Lemma valid_map (b : eid -> nat) es : (forall e, In e es -> b e < edim s e) -> valid (map b es) (map (edim s) es).
    Proof using.
      clear. induction es as [|e es IH]; intros H; cbn [map]; [constructor|]. constructor; [apply H; left; reflexivity|apply IH; intros x Hx; apply H; right; exact Hx].
    Qed.
    Lemma prod_of_bond k tl tr : (forall il ir, valid il (map (edim s) L) -> valid ir (map (edim s) Rt) -> bond_product k tl tr il ir = elt ordered (il ++ ir)) -> prod_ok k (n_t nd) tl tr.
    Proof using W Hn HND HP.
      intros H b Hb. rewrite <- ordered_elt. symmetry. apply H; apply valid_map; intros e He; apply Hb, HIn, in_or_app; auto.
    Qed.

    (** the new nodes [N1], [N2] with tensors tl, tr *)
    Definition bond_fresh (bond : option nat) : Prop := forall x, bond = Some x -> ~ In x (n_names nd).

    Lemma bond_fresh2 bond : bond_fresh bond -> forall x, bond = Some x \/ bond = Some x -> ~ In x (n_names nd).
    Proof using. clear. intros H x [E|E]; apply (H x E). Qed.

    Lemma split_any bond tl tr k : named s n -> bond_fresh bond -> shape tl = map (edim s) L ++ [k] -> shape tr = k :: map (edim s) Rt ->
      exists s' N1 N2 g, split_with n L Rt tl tr (bond_names bond bond) s = (s', Some (N1, N2)) /\ split_post s' tl tr (bond_names bond bond) N1 N2 g.
    Proof using W Hn HND HP.
      intros Hnm Hb Htl Htr.
      destruct (@bond_names_ok bond bond tl tr Hnm) as [M1 M2];
        [unfold rank; rewrite Htl, app_length, map_length; reflexivity|unfold rank; rewrite Htr; cbn; rewrite map_length; reflexivity|apply bond_fresh2; exact Hb|].
      apply (split_with_ok Hnm Htl Htr M1 M2).
    Qed.

    Lemma split_qr_ok qrf bond : named s n -> bond_fresh bond -> (forall m q r, rank m = 2 -> qrf m = (q, r) -> is_qr m q r) ->
      exists s' N1 N2 g tl tr k, split_node_qr qrf n L Rt bond s = (s', Some (N1, N2)) /\ split_post s' tl tr (bond_names bond bond) N1 N2 g /\
        shape tl = map (edim s) L ++ [k] /\ shape tr = k :: map (edim s) Rt /\ prod_ok k (n_t nd) tl tr.
    Proof using W Hn HND HP.
      intros Hnm Hb Hqr. destruct (Hnm nd Hn) as [_ Hlen]. destruct (qrf (as_matrix ordered (length L))) as [q0 r0'] eqn:Eq.
      pose proof (Hqr (as_matrix ordered (length L)) q0 r0' eq_refl Eq) as Hq.
      destruct (@qr_general R true (fun x => x) qrf ordered (length L) false q0 r0' Eq Hq) as (S1 & S2 & Hprod).
      destruct fs_ordered as [Ff Fs]. rewrite Ff, Fs in *.
      set (k := Nat.min (nprod (map (edim s) L)) (nprod (map (edim s) Rt))) in *.
      destruct (qr true (fun x => x) qrf ordered (length L) false) as [tl tr] eqn:Et. cbn [fst snd] in *.
      destruct (split_any Hnm Hb S1 S2) as (s' & N1 & N2 & g & K & P).
      exists s', N1, N2, g, tl, tr, k. split; [|split; [exact P|split; [exact S1|split; [exact S2|]]]].
      - unfold split_node_qr. unfold bind at 1. rewrite (names_ok bond bond Hlen). unfold bind at 1. rewrite order_ok. rewrite Et. exact K.
      - apply prod_of_bond. intros il ir Hl Hr. rewrite (Hprod il ir Hl Hr).
        destruct Hq as (_ & _ & Hq). unfold rows, cols in Hq. cbn [shape as_matrix reshape nth] in Hq. rewrite Ff, Fs in Hq. fold k in Hq.
        rewrite <- (@as_matrix_elt R ordered (length L) il ir) by (rewrite ?Ff, ?Fs; assumption). rewrite Ff, Fs.
        rewrite <- Hq by (apply ravel_lt; assumption). apply nsum_ext. intros j Hj. ring.
    Qed.
    Lemma split_rq_ok qrf bond : named s n -> bond_fresh bond -> (forall m q r, rank m = 2 -> qrf m = (q, r) -> is_qr m q r) ->
      exists s' N1 N2 g tl tr k, split_node_rq qrf n L Rt bond s = (s', Some (N1, N2)) /\ split_post s' tl tr (bond_names bond bond) N1 N2 g /\
        shape tl = map (edim s) L ++ [k] /\ shape tr = k :: map (edim s) Rt /\ prod_ok k (n_t nd) tl tr.
    Proof using W Hn HND HP.
      intros Hnm Hb Hqr. destruct (Hnm nd Hn) as [_ Hlen]. destruct (qrf (adjoint (as_matrix ordered (length L)))) as [q0 r0'] eqn:Eq.
      pose proof (Hqr (adjoint (as_matrix ordered (length L))) q0 r0' eq_refl Eq) as Hq.
      destruct (@rq_general R true (fun x => x) qrf ordered (length L) false q0 r0' Eq Hq) as (S1 & S2 & Hprod).
      destruct fs_ordered as [Ff Fs]. rewrite Ff, Fs in *.
      set (k := Nat.min (nprod (map (edim s) Rt)) (nprod (map (edim s) L))) in *.
      destruct (rq true (fun x => x) qrf ordered (length L) false) as [tl tr] eqn:Et. cbn [fst snd] in *.
      destruct (split_any Hnm Hb S1 S2) as (s' & N1 & N2 & g & K & P).
      exists s', N1, N2, g, tl, tr, k. split; [|split; [exact P|split; [exact S1|split; [exact S2|]]]].
      - unfold split_node_rq. unfold bind at 1. rewrite (names_ok bond bond Hlen). unfold bind at 1. rewrite order_ok. rewrite Et. exact K.
      - apply prod_of_bond. intros il ir Hl Hr. rewrite (Hprod il ir Hl Hr).
        destruct Hq as (_ & _ & Hq). unfold rows, cols in Hq. cbn [shape as_matrix adjoint reshape nth rev app] in Hq. rewrite Ff, Fs in Hq. fold k in Hq.
        rewrite <- (@as_matrix_elt R ordered (length L) il ir) by (rewrite ?Ff, ?Fs; assumption). rewrite Ff, Fs.
        rewrite <- (@cj_inv R (elt (as_matrix ordered (length L)) _)). f_equal. rewrite <- adjoint_elt.
        rewrite <- Hq by (apply ravel_lt; assumption). apply nsum_ext. intros j Hj. ring.
    Qed.

    (** the sum of the first k dyads of the singular value decomposition (u0, sv0, v0) of the matrix of the node *)
    Definition dyads (k : nat) (u0 : tensor R) (sv0 : list R) (v0 : tensor R) (b : eid -> nat) : R :=
      nsum k (fun j => elt u0 [ravel (map (edim s) L) (map b L); j] *! nth j sv0 r0 *! elt v0 [j; ravel (map (edim s) Rt) (map b Rt)]).

    Lemma matrix_elt (b : eid -> nat) : (forall e, In e (n_edges nd) -> b e < edim s e) ->
      elt (as_matrix ordered (length L)) [ravel (map (edim s) L) (map b L); ravel (map (edim s) Rt) (map b Rt)] = elt (n_t nd) (map b (n_edges nd)).
    Proof using W Hn HND HP.
      intros Hb. destruct fs_ordered as [Ff Fs]. rewrite <- ordered_elt.
      rewrite <- (@as_matrix_elt R ordered (length L)); rewrite ?Ff, ?Fs; [reflexivity| |]; apply valid_map; intros e He; apply Hb, HIn, in_or_app; auto.
    Qed.

    Lemma last_snoc A (d : A) l x : last (l ++ [x]) d = x.
    Proof using. clear. induction l as [|y l IH]; [reflexivity|]. cbn. destruct (l ++ [x]) eqn:E; [destruct l; discriminate|exact IH]. Qed.

    Lemma split_svd_ok svdf nkeep sqrtf bond : named s n -> bond_fresh bond -> (forall m u sv vh, rank m = 2 -> svdf m = (u, sv, vh) -> is_svd m u sv vh) ->
      (forall m u sv vh x, svdf m = (u, sv, vh) -> In x sv -> sqrtf x *! sqrtf x = x) ->
      exists s' N1 N2 g tl tr M u0 sv0 v0, let k := Nat.min (nkeep sv0) (length sv0) in
        split_node svdf nkeep sqrtf n L Rt bond s = (s', Some (N1, N2, skipn (nkeep sv0) sv0)) /\ split_post s' tl tr (bond_names bond bond) N1 N2 g /\
        shape tl = map (edim s) L ++ [k] /\ shape tr = k :: map (edim s) Rt /\ svdf M = (u0, sv0, v0) /\ shape M = [nprod (map (edim s) L); nprod (map (edim s) Rt)] /\
        (forall b, (forall e, In e (n_edges nd) -> b e < edim s e) -> elt M [ravel (map (edim s) L) (map b L); ravel (map (edim s) Rt) (map b Rt)] = elt (n_t nd) (map b (n_edges nd))) /\
        forall T, (forall b, (forall e, In e (n_edges nd) -> b e < edim s e) -> elt T (map b (n_edges nd)) = dyads k u0 sv0 v0 b) -> prod_ok k T tl tr.
    Proof using W Hn HND HP.
      intros Hnm Hb Hsvd Hsq. destruct (Hnm nd Hn) as [_ Hlen]. destruct (svdf (as_matrix ordered (length L))) as [[u0 sv0] v0] eqn:Eq.
      pose proof (Hsvd (as_matrix ordered (length L)) u0 sv0 v0 eq_refl Eq) as Hq.
      pose proof (@svd_general R svdf nkeep ordered (length L) u0 sv0 v0 Eq Hq) as HG. cbv zeta in HG.
      destruct (svd svdf nkeep ordered (length L)) as [[[u sv] vh] rest] eqn:Et. destruct HG as (S1 & S2 & S3 & S4 & Hprod).
      destruct fs_ordered as [Ff Fs]. rewrite Ff, Fs in *.
      set (k := Nat.min (nkeep sv0) (length sv0)) in *. set (sq := map sqrtf sv).
      assert (shape (times_last u sq) = map (edim s) L ++ [k]) as T1 by exact S1. assert (shape (times_first sq vh) = k :: map (edim s) Rt) as T2 by exact S2.
      destruct (split_any Hnm Hb T1 T2) as (s' & N1 & N2 & g & K & P).
      assert (rest = skipn (nkeep sv0) sv0) as ->.
      { unfold svd in Et. rewrite Eq in Et. injection Et as _ _ _ <-. reflexivity. }
      exists s', N1, N2, g, (times_last u sq), (times_first sq vh), (as_matrix ordered (length L)), u0, sv0, v0. cbv zeta. fold k.
      split; [|split; [exact P|split; [exact S1|split; [exact S2|split; [exact Eq|split; [unfold as_matrix; cbn [shape]; rewrite Ff, Fs; reflexivity|split; [intros b; apply matrix_elt|]]]]]]].
      - unfold split_node. unfold bind at 1. rewrite (names_ok bond bond Hlen). unfold bind at 1. rewrite order_ok. rewrite Et. fold sq. unfold bind. rewrite K. reflexivity.
      - intros T HT b Hvb. rewrite (HT b Hvb). unfold dyads.
        assert (valid (map b L) (map (edim s) L)) as VL by (apply valid_map; intros e He; apply Hvb, HIn, in_or_app; auto).
        assert (valid (map b Rt) (map (edim s) Rt)) as VR by (apply valid_map; intros e He; apply Hvb, HIn, in_or_app; auto).
        rewrite <- (Hprod _ _ VL VR). apply nsum_ext. intros j Hj. unfold times_last, times_first. cbn [elt]. rewrite last_snoc. cbn [hd].
        unfold sq. assert (j < length sv) as Hj' by lia. rewrite (nth_indep (map sqrtf sv) r0 (sqrtf r0)) by (rewrite map_length; exact Hj'). rewrite map_nth.
        assert (sqrtf (nth j sv r0) *! sqrtf (nth j sv r0) = nth j sv r0) as Hs.
        { apply (Hsq _ _ _ _ _ Eq). rewrite <- S4. apply in_or_app. left. apply nth_In. exact Hj'. }
        rewrite <- Hs at 1. ring.
    Qed.
  End Node.
End SplitOk.
