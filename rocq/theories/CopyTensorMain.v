(** * CopyTensorMain: the statements about copy tensors on whole heaps *)
From Coq Require Import Permutation.
From Verif Require Import Prelude Algebra Tensor TensorFacts Einsum EinsumFacts NetworkFacts Graph GraphBase GraphContract GraphOps GraphValue GraphOuter GraphConnect GraphQuery GraphQueryFacts GraphCompound CopyTensor CopyTensorSpec CopyTensorSum CopyTensorNet CopyTensorMove CopyTensorStep CopyTensorTotal CopyTensorBucket.
Set Implicit Arguments.
Unset Strict Implicit.

(** the other nodes which share an edge with [c] *)
Definition neighbours {R : csr} (s : @st R) (c : nid) (PS : list nid) : Prop :=
  NoDup PS /\ forall n, In n PS <-> n <> c /\ exists e, on s c e /\ on s n e.

Section Main.
  Context {R : csr}.
  Variable letters : nat.
  Notation st := (@st R).
  Implicit Types (s : st).

  Lemma copy_tensor_entries (r d : nat) (ix : list nat) :
    shape (copy_tensor (R := R) r d) = repeat d r /\
    (valid ix (repeat d r) ->
     ((forall x y, In x ix -> In y ix -> x = y) -> elt (copy_tensor (R := R) r d) ix = r1) /\
     (~ (forall x y, In x ix -> In y ix -> x = y) -> elt (copy_tensor (R := R) r d) ix = r0)).
  Proof.
    split; [reflexivity|]. intros Hv. pose proof (proj2 (copy_tensor_delta (R := R) r d) ix Hv) as E. rewrite E. rewrite <- alleq_spec. destruct (alleq ix); split; intros H; congruence || (exfalso; apply H; reflexivity) || reflexivity.
  Qed.

  Lemma forget_none s : forget [] s = s.
  Proof. destruct s. reflexivity. Qed.

  Lemma partners_neighbours s c ps : partners s c ps -> neighbours s c (map fst ps).
  Proof.
    intros P. split; [apply (pt_nodup P)|]. intros n. split.
    - intros Hn. split; [intros ->; exact (pt_self P Hn)|]. destruct (pt_used P Hn) as (a & e & He & Sn). exists e. split; [exact He | exists a; exact Sn].
    - intros (Nc & e & He & (k & Sk)). destruct (pt_all P He Sk) as [Q|Q]; [cbn in Q; congruence | exact Q].
  Qed.
  Lemma keptE_filter s cut PS : keptE s cut PS = filter (fun e => negb (mem e cut)) (flat_map (edges_at0 s) PS).
  Proof. unfold keptE, kept_of. induction PS as [|p PS IH]; [reflexivity|]. cbn [flat_map]. rewrite filter_app, IH. reflexivity. Qed.
  Lemma on_node s c nc e : s_nodes s c = Some nc -> (on s c e <-> In e (n_edges nc)).
  Proof.
    intros Hc. unfold on, slot. cbn [fst snd]. rewrite Hc. split; [intros (k & K); apply nth_error_In in K; exact K | apply In_nth_error].
  Qed.
  Lemma on_edges_at0 s n e : on s n e <-> In e (edges_at0 s n).
  Proof.
    unfold on, slot, edges_at0. cbn [fst snd]. destruct (s_nodes s n); [split; [intros (k & K); apply nth_error_In in K; exact K | apply In_nth_error]|]. split; [intros (k & K); discriminate | intros []].
  Qed.

  Lemma contract_copy_meaning s s' c nc d N :
    wf s -> s_nodes s c = Some nc -> is_delta (n_t nc) d -> contract_copy_node letters c s = (s', Some N) ->
    exists PS, neighbours s c PS /\ wf (forget PS s') /\ s_nodes s N = None /\
      (exists nd, s_nodes s' N = Some nd /\ forall e, In e (n_edges nd) <-> ~ on s c e /\ exists n, In n PS /\ on s n e) /\
      (forall e, on s' c e -> exists ed, s_edges s' e = Some ed /\ e_2 ed = None) /\
      (forall m, m <> c -> m <> N -> s_nodes s' m = s_nodes s m) /\
      forall S a, NoDup (c :: PS ++ S) -> ~ In N S -> netval s (c :: PS ++ S) a = netval (forget PS s') (N :: S) a.
  Proof.
    intros W Hc Hd H. rewrite <- (forget_none s) in W. assert (s_nodes (forget [] s) c = Some nc) as Hc' by exact Hc.
    destruct (contract_copy_inv W (fun n (F : In n []) => match F with end) Hc' Hd H) as (ps & Hps & K). exists (map fst ps).
    pose proof (fun S a => copied_value (S := S) a W Hc' K) as V. pose proof (cp_partners K) as P. pose proof (cp_wf K) as W'. destruct (cp_new K) as (nd & Hn & En & _).
    rewrite app_nil_r in W'. rewrite forget_none in *.
    split; [apply partners_neighbours, P|]. split; [exact W'|]. split.
    { destruct (cp_next K) as (-> & _). destruct (s_nodes s (s_nn s)) as [x|] eqn:E; [|reflexivity]. pose proof (wf_nn W E). lia. }
    split.
    { exists nd. split; [exact Hn|]. intros e. rewrite En, keptE_filter, filter_In, in_flat_map, Bool.negb_true_iff, mem_nIn, (on_node e Hc). split.
      - intros [(p & Hp & He) Hx]. split; [exact Hx|]. exists p. split; [exact Hp | apply on_edges_at0, He].
      - intros [Hx (p & Hp & He)]. split; [|exact Hx]. exists p. split; [exact Hp | apply on_edges_at0, He]. }
    split; [intros e He; apply on_edges_at0 in He; apply (cp_dangling K He)|]. split; [apply (cp_others K)|].
    intros S a H1 H2. specialize (V S a H1 H2 (fun n (F : In n []) => match F with end)). rewrite app_nil_r in V. exact V.
  Qed.

  Lemma contract_copy_iff s c nc d :
    wf s -> s_nodes s c = Some nc -> is_delta (n_t nc) d -> length (n_names nc) = rank (n_t nc) ->
    (forall PS, neighbours s c PS -> length (filter (fun e => negb (mem e (n_edges nc))) (flat_map (edges_at0 s) PS)) < letters) ->
    ((exists s' N, contract_copy_node letters c s = (s', Some N)) <->
     (forall e ed, on s c e -> s_edges s e = Some ed -> e_2 ed <> None) /\ exists e n, on s c e /\ on s n e /\ n <> c).
  Proof.
    intros W Hc Hd Hnm Hlet. assert (wf (forget [] s)) as W0 by (rewrite forget_none; exact W). assert (s_nodes (forget [] s) c = Some nc) as Hc' by exact Hc. split.
    - intros (s' & N & H). destruct (contract_copy_inv W0 (fun n (F : In n []) => match F with end) Hc' Hd H) as (ps & Hps & K).
      pose proof (cp_partners K) as P. rewrite forget_none in P. split.
      + intros e ed He He'. destruct (pt_joined P He) as (ed' & q & E1 & E2). congruence.
      + pose proof (cp_some K) as Q. destruct ps as [|[p l] ps]; [congruence|]. destruct (pt_used P (p := p) (or_introl eq_refl)) as (a & e & He & Sp). exists e, p. split; [exact He|]. split; [exists a; exact Sp|].
        intros ->. apply (pt_self P). left. reflexivity.
    - intros [H1 (e & n & He & (k & Hk) & Hn)]. eapply (@contract_copy_total R letters [] c s nc d); auto.
      + intros n' [].
      + rewrite (wf_rank W Hc). lia.
      + intros f fd Hf Hfd. apply (H1 f); [apply (on_node f Hc), Hf | exact Hfd].
      + exists e, (n, k). split; [apply (on_node e Hc), He|]. rewrite forget_none. split; [exact Hk | exact Hn].
      + intros ps Hps. rewrite forget_none, keptE_filter. apply Hlet. apply partners_neighbours. destruct (get_partners_inv W0 Hc' Hps) as [_ P]. rewrite forget_none in P. exact P.
  Qed.

  Lemma bucket_meaning s s' nodes order nodes' :
    wf s -> NoDup nodes -> (forall n, In n nodes -> s_nodes s n <> None) -> NoDup order -> incl order nodes ->
    (forall c, In c order -> exists nc d, s_nodes s c = Some nc /\ is_delta (n_t nc) d) ->
    (forall c c' e, In c order -> In c' order -> on s c e -> on s c' e -> c = c') ->
    (forall c e n, In c order -> on s c e -> on s n e -> In n nodes) ->
    bucket letters nodes order s = (s', Some nodes') ->
    exists D, wf (forget D s') /\ NoDup nodes' /\ (forall n, In n nodes' -> s_nodes (forget D s') n <> None) /\
      (forall n, In n nodes' -> In n nodes \/ s_nn s <= n < s_nn s') /\ (forall c, In c order -> ~ In c nodes') /\
      forall a, netval s nodes a = netval (forget D s') nodes' a.
  Proof.
    intros W H1 H2 H3 H4 H5 H6 H7 H. destruct (@bucket_inv R letters order [] s nodes s' nodes') as (D & A1 & _ & A3 & A4 & A5 & A6 & A7); [|exact H|].
    - constructor; rewrite ?forget_none; auto.
      + intros n [].
      + intros c e q Hc He Sq. apply (H7 c e); [exact Hc | exact He | destruct q as [n k]; exists k; exact Sq].
    - exists D. rewrite forget_none in A7. auto 10.
  Qed.
End Main.
