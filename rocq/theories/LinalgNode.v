(** * LinalgNode: node_linalg.kron *)
From Verif Require Import Prelude Algebra Tensor TensorFacts Einsum Graph GraphBase GraphContract GraphOps GraphValue GraphQuery GraphQueryFacts GraphCompound Linalg.
Set Implicit Arguments.
Unset Strict Implicit.

Section Kron.
  Context {R : csr}.
  Lemma kron_edges_inv ns (s s' : @st R) io : kron_edges ns s = (s', Some io) -> s' = s /\
    (forall n, In n ns -> exists nd, s_nodes s n = Some nd /\ Nat.even (rank (n_t nd)) = true) /\
    (wf s -> fst io = flat_map (fun n => firstn (length (edges_at0 s n) / 2) (edges_at0 s n)) ns /\
             snd io = flat_map (fun n => skipn (length (edges_at0 s n) / 2) (edges_at0 s n)) ns).
  Proof.
    revert s s' io; induction ns as [|n r IH]; intros s s' io H; cbn [kron_edges] in H.
    - injection H as <- <-. split; [reflexivity|]. split; [intros ? [] | split; reflexivity].
    - apply bind_inv in H. destruct H as (nd & s1 & H1 & H). apply get_node_inv in H1. destruct H1 as (-> & Hn).
      apply bind_inv in H. destruct H as (u & s2 & H2 & H). apply guard_inv in H2. destruct H2 as (Q & ->).
      apply bind_inv in H. destruct H as (io' & s3 & H3 & H). injection H as <- <-.
      destruct (IH _ _ _ H3) as (-> & HE & HV). split; [reflexivity|]. split.
      + intros m [<- | Hm]; [|apply HE, Hm]. exists nd. split; [exact Hn|].
        apply Nat.eqb_eq in Q. apply Nat.even_spec. exists (rank (n_t nd) / 2).
        pose proof (Nat.div_mod (rank (n_t nd)) 2 ltac:(lia)) as D. unfold rank in *. lia.
      + intros W. destruct (HV W) as (A & B). cbn [flat_map fst snd].
        assert (En : edges_at0 s n = n_edges nd) by (unfold edges_at0; rewrite Hn; reflexivity). rewrite !En.
        assert (L : length (n_edges nd) = length (shape (n_t nd))).
        { apply (wf_rank W) in Hn. unfold rank in *. congruence. }
        rewrite L, A, B. split; reflexivity.
  Qed.

  Theorem node_kron_ok ns (s s' : @st R) f : wf s -> NoDup ns -> node_kron ns s = (s', Some f) ->
    let half n := length (edges_at0 s n) / 2 in
    let ins := flat_map (fun n => firstn (half n) (edges_at0 s n)) ns in
    let outs := flat_map (fun n => skipn (half n) (edges_at0 s n)) ns in
    wf s' /\ (forall n, In n ns -> exists nd, s_nodes s n = Some nd /\ Nat.even (rank (n_t nd)) = true) /\
    exists nd, s_nodes s' f = Some nd /\ n_edges nd = ins ++ outs /\ shape (n_t nd) = map (edim s) (ins ++ outs) /\
      forall a, (forall e, In e (ins ++ outs) -> a e < edim s e) ->
        elt (n_t nd) (map a ins ++ map a outs) = netprod (net_of s ns) a.
  Proof.
    intros W HN H half ins outs. unfold node_kron in H. apply bind_inv in H. destruct H as (io & s1 & H1 & H).
    apply kron_edges_inv in H1. destruct H1 as (-> & HE & HV). destruct (HV W) as (A & B).
    rewrite A, B in H. destruct (outer_final_step W HN H) as (W' & _ & _ & nd & Hn & He & Hs & Hv).
    split; [exact W'|]. split; [exact HE|]. exists nd. split; [exact Hn|]. split; [exact He|]. split; [exact Hs|].
    intros a Ha. rewrite <- map_app. apply Hv. exact Ha.
  Qed.
  (** an operand with an odd number of axes is refused *)
  Lemma node_kron_odd ns (s : @st R) n nd : In n ns -> s_nodes s n = Some nd -> Nat.even (rank (n_t nd)) = false -> snd (node_kron ns s) = None.
  Proof.
    intros Hi Hn O. unfold node_kron. destruct (kron_edges ns s) as [s1 [io|]] eqn:E.
    - apply kron_edges_inv in E. destruct E as (_ & HE & _). destruct (HE n Hi) as (nd' & Hn' & Ev). congruence.
    - unfold bind. rewrite E. reflexivity.
  Qed.
End Kron.
