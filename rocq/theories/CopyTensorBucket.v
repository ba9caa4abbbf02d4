(** * CopyTensorBucket: the tensor of a copy node; sequences of contract_copy_node *)
From Coq Require Import Permutation.
From Verif Require Import Prelude Algebra Tensor TensorFacts Einsum EinsumFacts NetworkFacts Graph GraphBase GraphContract GraphOps GraphValue GraphOuter GraphConnect GraphQuery GraphQueryFacts GraphCompound CopyTensor CopyTensorSpec CopyTensorSum CopyTensorNet CopyTensorMove CopyTensorStep.
Set Implicit Arguments.
Unset Strict Implicit.
Local Open Scope csr_scope.

Section Bucket.
  Context {R : csr}.
  Variable letters : nat.
  Notation st := (@st R).
  Implicit Types (s : st).

  Lemma copy_tensor_delta r d : is_delta (copy_tensor (R := R) r d) d.
  Proof.
    unfold is_delta, copy_tensor, rank. cbn [shape elt]. rewrite repeat_length. split; [reflexivity|]. intros ix Hv. apply valid_length in Hv as Hl. rewrite repeat_length in Hl.
    assert (existsb (fun i => forallb (Nat.eqb i) ix) (if r =? 0 then [0] else seq 0 d) = alleq ix) as ->; [|reflexivity].
    apply Bool.eq_true_iff_eq. rewrite existsb_exists, alleq_spec. split.
    - intros (i & _ & H) x y Hx Hy. rewrite forallb_forall in H. apply H, Nat.eqb_eq in Hx. apply H, Nat.eqb_eq in Hy. congruence.
    - intros H. destruct ix as [|x ix].
      + cbn [length] in Hl. subst r. exists 0. split; [left; reflexivity | reflexivity].
      + exists x. cbn [length] in Hl. destruct r as [|r]; [discriminate|]. cbn [Nat.eqb]. split.
        * apply in_seq. inversion Hv; subst. lia.
        * apply forallb_forall. intros y Hy. apply Nat.eqb_eq, H; [left; reflexivity | exact Hy].
  Qed.

  (** the nodes of [order] are copy tensors, no two of them adjacent, and their neighbours are among [nodes] *)
  Record bucket_pre (D : list nid) s (nodes order : list nid) : Prop := {
    bp_wf : wf (forget D s);
    bp_dead : forall n, In n D -> n < s_nn s;
    bp_nodes : NoDup nodes;
    bp_live : forall n, In n nodes -> s_nodes (forget D s) n <> None;
    bp_order : NoDup order;
    bp_in : incl order nodes;
    bp_copy : forall c, In c order -> exists nc d, s_nodes (forget D s) c = Some nc /\ is_delta (n_t nc) d;
    bp_apart : forall c c' e, In c order -> In c' order -> on (forget D s) c e -> on (forget D s) c' e -> c = c';
    bp_closed : forall c e q, In c order -> on (forget D s) c e -> slot (forget D s) q = Some e -> In (fst q) nodes
  }.

  Lemma bucket_inv : forall order D s nodes s' nodes', bucket_pre D s nodes order -> bucket letters nodes order s = (s', Some nodes') ->
    exists D', wf (forget D' s') /\ (forall n, In n D' -> n < s_nn s') /\ NoDup nodes' /\ (forall n, In n nodes' -> s_nodes (forget D' s') n <> None) /\
      (forall n, In n nodes' -> In n nodes \/ s_nn s <= n < s_nn s') /\ (forall c, In c order -> ~ In c nodes') /\ forall a, netval (forget D s) nodes a = netval (forget D' s') nodes' a.
  Proof.
    induction order as [|c order IH]; intros D s nodes s' nodes' B H.
    - injection H as <- <-. exists D. split; [apply (bp_wf B)|]. split; [apply (bp_dead B)|]. split; [apply (bp_nodes B)|]. split; [apply (bp_live B)|]. split; [auto|]. split; [intros c []|]. reflexivity.
    - cbn [bucket] in H. apply bind_inv in H. destruct H as (ps0 & s0 & H1 & H). apply bind_inv in H. destruct H as (N & s1 & H2 & H).
      destruct (bp_copy B (c := c) (or_introl eq_refl)) as (nc & d & Hc & Hd). pose proof (bp_wf B) as W.
      destruct (get_partners_inv W Hc H1) as (-> & _).
      destruct (contract_copy_inv W (bp_dead B) Hc Hd H2) as (ps & Hps & K). rewrite Hps in H1. injection H1 as <-.
      pose proof (cp_partners K) as P. set (sl := forget D s) in *. set (PS := map fst ps) in *. set (D1 := PS ++ D). set (sl1 := forget D1 s1).
      destruct (cp_next K) as (EN & Enn & _).
      assert (forall n, In n nodes -> n < N /\ ~ In n D) as Hlt.
      { intros n Hn. pose proof (bp_live B Hn) as Q. fold sl in Q. destruct (s_nodes sl n) as [nd|] eqn:E; [|congruence]. split; [rewrite EN; apply (wf_nn W E) | apply (forget_node E)]. }
      assert (In c nodes) as Hcn by (apply (bp_in B); left; reflexivity).
      assert (forall p, In p PS -> In p nodes) as HPn.
      { intros p Hp. destruct (pt_used P Hp) as (a & e & He & Sp). exact (bp_closed B (q := (p, a)) (or_introl eq_refl) He Sp). }
      set (rest := filter (fun n => negb (mem n (c :: PS))) nodes) in *.
      assert (Permutation nodes (c :: PS ++ rest)) as Pm.
      { change (c :: PS ++ rest) with ((c :: PS) ++ rest). apply NoDup_Permutation; [apply (bp_nodes B)| |].
        - apply NoDup_app_iff. split; [constructor; [apply (pt_self P) | apply (pt_nodup P)]|]. split; [apply NoDup_filter, (bp_nodes B)|]. intros x Hx Hr. apply filter_In in Hr. destruct Hr as [_ Hr]. apply Bool.negb_true_iff, mem_nIn in Hr. contradiction.
        - intros x. rewrite in_app_iff. split.
          + intros Hx. destruct (mem x (c :: PS)) eqn:M; [left; apply mem_In, M | right; apply filter_In; rewrite M; auto].
          + intros [[<-|Hx]|Hx]; [exact Hcn | apply HPn, Hx | apply filter_In in Hx; apply Hx]. }
      assert (NoDup (c :: PS ++ rest)) as NDr by (eapply Permutation_NoDup; [exact Pm | apply (bp_nodes B)]).
      assert (~ In N rest) as HNr by (intros Q; apply filter_In in Q; destruct Q as [Q _]; apply Hlt in Q; lia).
      assert (~ In N PS) as HNP by (intros Q; apply HPn, Hlt in Q; lia). assert (~ In N D) as HND by (intros Q; apply (bp_dead B) in Q; lia).
      assert (forall m, m <> c -> m <> N -> ~ In m PS -> s_nodes sl1 m = s_nodes sl m) as Hsame.
      { intros m Hm1 Hm2 Hm3. destruct (in_dec Nat.eq_dec m D) as [I|I].
        - unfold sl1, sl, forget, D1. cbn [s_nodes]. rewrite (proj2 (mem_In m (PS ++ D))) by (apply in_or_app; right; exact I). rewrite (proj2 (mem_In m D)) by exact I. reflexivity.
        - unfold sl1, sl, D1. rewrite !forget_keep; [apply (cp_others K); assumption | exact I | intros Q; apply in_app_or in Q; tauto]. }
      assert (forall c', In c' order -> c' <> c /\ c' <> N /\ ~ In c' PS) as Hord.
      { intros c' Hc'. assert (In c' nodes) as I by (apply (bp_in B); right; exact Hc'). pose proof (bp_order B) as O. inversion O as [|? ? O1 O2]; subst. split; [intros ->; contradiction|].
        split; [apply Hlt in I; lia|]. intros Q. destruct (pt_used P Q) as (a & e & He & Sp). apply O1.
        rewrite (bp_apart B (c := c) (c' := c') (e := e)); [exact Hc' | left; reflexivity | right; exact Hc' | exact He | exists a; exact Sp]. }
      assert (forall c' e, In c' order -> (on sl1 c' e <-> on sl c' e)) as Hon.
      { intros c' e Hc'. destruct (Hord c' Hc') as (O1 & O2 & O3). unfold on, slot. cbn [fst snd]. rewrite (Hsame c' O1 O2 O3). reflexivity. }
      destruct (IH D1 s1 (N :: rest) s' nodes') as (D' & R1 & R2 & R3 & R4 & R7 & R5 & R6).
      + constructor.
        * apply (cp_wf K).
        * intros n Hn. rewrite Enn, <- EN. apply in_app_or in Hn. destruct Hn as [Hn|Hn]; [apply HPn, Hlt in Hn; lia | apply (bp_dead B) in Hn; lia].
        * constructor; [exact HNr | apply NoDup_filter, (bp_nodes B)].
        * intros n [<-|Hn].
          -- destruct (cp_new K) as (nd & Hn & _). rewrite forget_keep; [congruence | intros Q; apply in_app_or in Q; tauto].
          -- pose proof Hn as Hn0. apply filter_In in Hn. destruct Hn as [Hn Hm]. apply Bool.negb_true_iff, mem_nIn in Hm. cbn in Hm. fold sl1. rewrite (Hsame n); [apply (bp_live B), Hn | intros ->; tauto | intros ->; contradiction | tauto].
        * pose proof (bp_order B) as O. inversion O; assumption.
        * intros c' Hc'. right. apply filter_In. destruct (Hord c' Hc') as (O1 & O2 & O3). split; [apply (bp_in B); right; exact Hc'|]. apply Bool.negb_true_iff, mem_nIn. intros [Q|Q]; [congruence | contradiction].
        * intros c' Hc'. destruct (Hord c' Hc') as (O1 & O2 & O3). fold sl1. rewrite (Hsame c' O1 O2 O3). apply (bp_copy B). right. exact Hc'.
        * intros c1 c2 e I1 I2. fold sl1. rewrite (Hon c1 e I1), (Hon c2 e I2). apply (bp_apart B); right; assumption.
        * intros c' e q Hc' He Sq. fold sl1 in He, Sq. pose proof (proj1 (Hon c' e Hc') He) as He'. destruct (Nat.eq_dec (fst q) N) as [->|NN]; [left; reflexivity|].
          destruct (in_dec Nat.eq_dec (fst q) PS) as [I|I]; [exfalso; apply forget_slot in Sq; destruct Sq as [_ Sq]; apply Sq, in_or_app; left; exact I|].
          destruct (Nat.eq_dec (fst q) c) as [Ec|Ec].
          -- exfalso. destruct He' as (k & Sk). pose proof (slot_lt W Sk) as [_ L]. cbn in L. apply forget_slot in Sq. destruct Sq as [Sq _]. unfold slot in Sq. rewrite Ec, (cp_copy K) in Sq. apply nth_error_In in Sq.
             destruct (cp_dangling K (e := e)) as [L2 _]; [unfold edges_at0; rewrite (cp_copy K); exact Sq | lia].
          -- right. apply filter_In. split.
             ++ apply (bp_closed B (c := c') (e := e) (q := q)); [right; exact Hc' | exact He' | unfold slot in *; fold sl; rewrite <- (Hsame (fst q)); assumption].
             ++ apply Bool.negb_true_iff, mem_nIn. intros [Q|Q]; [congruence | contradiction].
      + exact H.
      + exists D'. split; [exact R1|]. split; [exact R2|]. split; [exact R3|]. split; [exact R4|]. split; [|split].
        * intros n Hn. pose proof (R4 n Hn) as Q. assert (n < s_nn s') as L. { destruct (s_nodes (forget D' s') n) as [nd|] eqn:E; [|congruence]. apply (wf_nn R1 E). }
          destruct (R7 n Hn) as [[<-|I]|I]; [right; lia | left; apply filter_In in I; apply I | right; lia].
        * intros c' [<-|Hc'] Q; [|exact (R5 c' Hc' Q)]. destruct (Hlt c Hcn) as [L _]. destruct (R7 c Q) as [[E|I]|I]; [lia | | lia].
          apply filter_In in I. destruct I as [_ I]. apply Bool.negb_true_iff, mem_nIn in I. apply I. left. reflexivity.
        * intros a. rewrite <- R6. rewrite (netval_perm sl a Pm). apply (copied_value a W Hc K NDr HNr (bp_dead B)).
  Qed.
End Bucket.
