(** * QuantumTrace: the partial trace *)
From Verif Require Import Prelude Algebra Tensor TensorFacts Einsum EinsumFacts NetworkFacts Graph GraphBase GraphConnect GraphContract GraphOps GraphValue GraphLaws GraphJoin GraphQuery GraphQueryFacts GraphCopy GraphCopyFacts GraphDensity Quantum QuantumSpec QuantumFacts QuantumNodes QuantumCopy QuantumJoin QuantumUnion QuantumOps.
Set Implicit Arguments.
Unset Strict Implicit.

(** ** choosing positions of a list *)
Section Pick.
  Implicit Types (ts l vs : list nat).
  Lemma nth_seq l : l = map (fun k => nth k l 0) (seq 0 (length l)).
  Proof.
    apply nth_ext with (d := 0) (d' := 0); [rewrite map_length, seq_length; reflexivity|]. intros k Hk. symmetry.
    rewrite nth_indep with (d' := nth 0 l 0) by (rewrite map_length, seq_length; exact Hk).
    rewrite (map_nth (fun k => nth k l 0)). rewrite seq_nth by exact Hk. apply nth_indep. exact Hk.
  Qed.
  Lemma filter_map_comm (f : nat -> nat) (p : nat -> bool) l : filter p (map f l) = map f (filter (fun x => p (f x)) l).
  Proof. induction l as [|x l IH]; [reflexivity|]. cbn. destruct (p (f x)); cbn; rewrite IH; reflexivity. Qed.
  Lemma nth_inj l i j : NoDup l -> i < length l -> j < length l -> nth i l 0 = nth j l 0 -> i = j.
  Proof. intros H Hi Hj E. apply (proj1 (NoDup_nth l 0) H i j Hi Hj E). Qed.

  Lemma filter_pick ts l : NoDup l -> (forall k, In k ts -> k < length l) -> filter (fun e => negb (mem e (pick ts l))) l = drop_at ts l.
  Proof.
    intros HN Hr. transitivity (filter (fun e => negb (mem e (pick ts l))) (map (fun k => nth k l 0) (seq 0 (length l)))); [rewrite <- (nth_seq l); reflexivity|]. rewrite filter_map_comm. unfold drop_at. f_equal. apply filter_ext_in. intros k Hk. apply in_seq in Hk.
    f_equal. apply eq_true_iff_eq. rewrite !mem_In. unfold pick. rewrite in_map_iff. split.
    - intros (j & E & Hj). apply nth_inj in E; [subst; exact Hj|exact HN|apply Hr, Hj|lia].
    - intros Q. exists k. auto.
  Qed.
  Lemma pick_map (f : nat -> nat) ts l : (forall k, In k ts -> k < length l) -> pick ts (map f l) = map f (pick ts l).
  Proof.
    intros Hr. unfold pick. rewrite map_map. apply map_ext_in. intros k Hk. rewrite nth_indep with (d' := f 0) by (rewrite map_length; apply Hr, Hk). apply map_nth.
  Qed.
  Lemma drop_map (f : nat -> nat) ts l : drop_at ts (map f l) = map f (drop_at ts l).
  Proof.
    unfold drop_at. rewrite map_length, map_map. apply map_ext_in. intros k Hk. apply filter_In in Hk. destruct Hk as [Hk _]. apply in_seq in Hk.
    rewrite nth_indep with (d' := f 0) by (rewrite map_length; lia). apply map_nth.
  Qed.
  Lemma drop_pick_perm ts l : NoDup ts -> (forall k, In k ts -> k < length l) -> Permutation l (drop_at ts l ++ pick ts l).
  Proof.
    intros HN Hr. transitivity (map (fun k => nth k l 0) (seq 0 (length l))); [rewrite <- (nth_seq l); reflexivity|]. unfold drop_at, pick. rewrite <- map_app. apply Permutation_map.
    apply NoDup_Permutation; [apply seq_NoDup| |].
    - apply NoDup_app_iff. split; [apply NoDup_filter, seq_NoDup|]. split; [exact HN|]. intros k Hk Q. apply filter_In in Hk. destruct Hk as [_ Hk].
      apply mem_In in Q. rewrite Q in Hk. discriminate.
    - intros k. rewrite in_app_iff, filter_In, in_seq. destruct (mem k ts) eqn:E.
      + apply mem_In in E. pose proof (Hr k E). split; [auto|lia].
      + cbn. split; [intros; left; split; [lia|reflexivity]|]. intros [Q|Q]; [lia|]. apply mem_In in Q. congruence.
  Qed.
  Lemma drop_in ts l x : In x (drop_at ts l) -> In x l.
  Proof. unfold drop_at. intros H. apply in_map_iff in H. destruct H as (k & <- & H). apply filter_In in H. destruct H as [H _]. apply in_seq in H. apply nth_In. lia. Qed.
  Lemma pick_in ts l x : (forall k, In k ts -> k < length l) -> In x (pick ts l) -> In x l.
  Proof. intros Hr H. apply in_map_iff in H. destruct H as (k & <- & H). apply nth_In, Hr, H. Qed.
  (** what an assignment must be when it gives [vs] to the chosen positions and [I] to the others *)
  Lemma put_asg (a b : nat -> nat) ts vs l I : NoDup l -> (forall k, In k ts -> k < length l) -> length I = length l -> length vs = length ts ->
    map a (drop_at ts l) = drop_at ts I -> map b (pick ts l) = vs -> (forall x, In x (drop_at ts l) -> b x = a x) -> map b l = put_at ts vs I.
  Proof.
    intros HN Hr HI HV H1 H2 H3. transitivity (map b (map (fun k => nth k l 0) (seq 0 (length l)))); [rewrite <- (nth_seq l); reflexivity|]. unfold put_at. rewrite map_map, HI. apply map_ext_in. intros k Hk.
    destruct (mem k ts) eqn:E.
    - apply mem_In in E. subst vs. unfold pick. rewrite map_map. symmetry.
      rewrite nth_indep with (d' := b (nth 0 l 0)) by (rewrite map_length; apply index_of_lt, E).
      rewrite (map_nth (fun x => b (nth x l 0))). rewrite nth_index_of by exact E. reflexivity.
    - assert (In k (filter (fun k => negb (mem k ts)) (seq 0 (length l)))) as Q by (apply filter_In; rewrite E; auto).
      rewrite H3 by (unfold drop_at; apply in_map_iff; exists k; auto).
      unfold drop_at in H1. rewrite HI, map_map in H1. apply (ext_in_map H1 k Q).
  Qed.
  Lemma perm_trace (O I o i e f g : list nat) : Permutation O (o ++ e) -> Permutation I (i ++ f) -> Permutation (O ++ I ++ g) ((o ++ i ++ g) ++ e ++ f).
  Proof.
    intros -> ->. rewrite <- !app_assoc. apply Permutation_app_head. rewrite (Permutation_app_comm e). rewrite <- !app_assoc. apply Permutation_app_head.
    rewrite (Permutation_app_comm f). rewrite <- !app_assoc. apply Permutation_app_head, Permutation_refl.
  Qed.
  Lemma forallb_false (p : nat -> bool) l : forallb p l = false -> exists x, In x l /\ p x = false.
  Proof.
    induction l as [|x l IH]; cbn; [discriminate|]. destruct (p x) eqn:E; cbn; [|intros _; exists x; auto]. intros H. destruct (IH H) as (y & Hy & Q). exists y. auto.
  Qed.
  Lemma put_length ts vs l : length (put_at ts vs l) = length l.
  Proof. unfold put_at. rewrite map_length, seq_length. reflexivity. Qed.
  Lemma drop_length ts l l' : length l = length l' -> length (drop_at ts l) = length (drop_at ts l').
  Proof. intros E. unfold drop_at. rewrite !map_length, E. reflexivity. Qed.
  Lemma drop_all l : drop_at (seq 0 (length l)) l = [].
  Proof.
    unfold drop_at. replace (filter _ _) with (@nil nat); [reflexivity|]. symmetry. 
    destruct (filter _ _) as [|k r] eqn:E; [reflexivity|]. assert (In k (k :: r)) as Q by (left; reflexivity). rewrite <- E in Q. apply filter_In in Q. destruct Q as [Q1 Q2].
    apply mem_In in Q1. rewrite Q1 in Q2. discriminate.
  Qed.
  Lemma pick_all l : pick (seq 0 (length l)) l = l.
  Proof. symmetry. apply nth_seq. Qed.
  Lemma put_all vs l : length vs = length l -> put_at (seq 0 (length l)) vs l = vs.
  Proof.
    intros E. transitivity (map (fun k => nth k vs 0) (seq 0 (length vs))); [|symmetry; apply nth_seq]. unfold put_at. rewrite E. apply map_ext_in. intros k Hk. pose proof Hk as Hk'. apply mem_In in Hk. rewrite Hk. f_equal.
    apply in_seq in Hk'. replace k with (nth k (seq 0 (length l)) 0) at 1 by (rewrite seq_nth; lia). apply index_of_nth; [apply seq_NoDup|rewrite seq_length; lia].
  Qed.
End Pick.

Section QT.
  Context {R : cjr}.
  Notation st := (@st R).
  Variable iter : list nat -> list nat.
  Hypothesis iter_perm : forall l, Permutation (iter l) l.
  Implicit Types (s : st) (q A B : quop) (e f : eid) (n m : nid) (ts : list nat).

  Lemma mmap_at_index l ts s : (forall k, In k ts -> k < length l) -> mmap (at_index l) ts s = (s, Some (pick ts l)).
  Proof.
    induction ts as [|k ts IH]; intros Hr; [reflexivity|]. cbn [mmap]. unfold bind at 1. unfold at_index at 1.
    assert (k < length l) as Hk by (apply Hr; left; reflexivity). rewrite (nth_error_nth' l 0 Hk). cbn [ret].
    unfold bind. rewrite IH by (intros j Hj; apply Hr; right; exact Hj). reflexivity.
  Qed.
  Lemma mmap_at_index_bad l ts s : (exists k, In k ts /\ length l <= k) -> mmap (at_index l) ts s = (s, None).
  Proof.
    induction ts as [|j ts IH]; intros (k & Hk & Hl); [destruct Hk|]. cbn [mmap]. unfold bind at 1. unfold at_index at 1.
    destruct (nth_error l j) as [x|] eqn:E; [|reflexivity]. cbn [ret]. unfold bind.
    rewrite IH; [reflexivity|]. destruct Hk as [->|Hk]; [|exists k; auto]. assert (nth_error l k <> None) as Q by congruence. apply nth_error_Some in Q. lia.
  Qed.

  (** a pair of edges to be traced does not run backwards along a CopyNode *)
  Definition forward s q ts : Prop := forall k, In k ts -> forall n i j, In n (q_cps q) -> slot s (n, i) = Some (nth k (q_out q) 0) -> slot s (n, j) = Some (nth k (q_in q) 0) -> i < j.

  Lemma q_nodups s q ns : oper s q ns -> NoDup (q_out q) /\ NoDup (q_in q) /\ (forall x, In x (q_out q) -> In x (q_in q) -> False) /\ (forall x, In x (q_out q) -> In x (q_ign q) -> False).
  Proof.
    intros O. pose proof (op_edges O) as H. unfold q_edges in H. apply NoDup_app_iff in H. destruct H as (H1 & H2 & H3). pose proof H2 as H4. apply NoDup_app_iff in H4.
    split; [exact H1|]. split; [apply H4|]. split; intros x X Y; apply (H3 x X), in_or_app; auto.
  Qed.

  Theorem partial_trace_ok s q ns ts : wf s -> oper s q ns -> copyable s q -> NoDup ts ->
    (forall k, In k ts -> k < length (q_out q) /\ k < length (q_in q)) -> pick ts (rows s q) = pick ts (cols s q) ->
    exists s' C nC, partial_trace iter q ts s = (s', Some C) /\ made s s' C nC /\ (forward s q ts -> copyable s' C) /\
      rows s' C = drop_at ts (rows s q) /\ cols s' C = drop_at ts (cols s q) /\ length (q_ign C) = length (q_ign q) /\
      (forall I J g, length I = length (q_out q) -> length J = length (q_in q) -> length g = length (q_ign q) ->
        entry s' nC C (drop_at ts I) (drop_at ts J) g =
        lsum (idxs (pick ts (rows s q))) (fun vs => entry s ns q (put_at ts vs I) (put_at ts vs J) g)).
  Proof.
    intros W O K HN Hr Hd. assert (forall k, In k ts -> k < length (q_out q)) as Hro by (intros k Hk; apply Hr, Hk). assert (forall k, In k ts -> k < length (q_in q)) as Hri by (intros k Hk; apply Hr, Hk).
    destruct (q_nodups O) as (No & Ni & Noi & Nog).
    set (ot := pick ts (q_out q)). set (it := pick ts (q_in q)).
    assert (NoDup ot) as Not by (apply (NoDup_app_iff (drop_at ts (q_out q))), (Permutation_NoDup (drop_pick_perm HN Hro) No)).
    assert (NoDup it) as Nit by (apply (NoDup_app_iff (drop_at ts (q_in q))), (Permutation_NoDup (drop_pick_perm HN Hri) Ni)).
    assert (NoDup (ot ++ it)) as Noit.
    { apply NoDup_app_iff. split; [exact Not|]. split; [exact Nit|]. intros x X Y. apply (Noi x (pick_in Hro X) (pick_in Hri Y)). }
    destruct (q_copy_ok iter_perm false W O K) as (s1 & d & ee & N1 & H1 & C1 & _ & He & _ & Hn & _ & Hsl).
    set (q1 := image d ee q) in *. pose proof (cl_oper C1) as O1. pose proof (cl_wf C1) as W1.
    set (es := pick ts (q_out q1)). set (fs := pick ts (q_in q1)).
    assert (es = map (edict ee) ot) as Ees by (unfold es, q1, image; cbn [q_out]; apply pick_map, Hro).
    assert (fs = map (edict ee) it) as Efs by (unfold fs, q1, image; cbn [q_in]; apply pick_map, Hri).
    set (C := Qu (drop_at ts (q_out q1)) (drop_at ts (q_in q1)) (map snd d) (q_ign q1) (q_cps q1)).
    assert (length (q_out q1) = length (q_out q)) as Lo by apply map_length. assert (length (q_in q1) = length (q_in q)) as Li by apply map_length.
    assert (Permutation (q_edges q1) (q_edges C ++ es ++ fs)) as P.
    { apply perm_trace; apply drop_pick_perm; auto; [rewrite Lo|rewrite Li]; assumption. }
    pose proof (Permutation_NoDup P (op_edges O1)) as NDP. apply NoDup_app_iff in NDP. destruct NDP as (_ & ND & NDx).
    assert (forall x, In x (es ++ fs) -> In x (q_edges q1)) as Hin.
    { intros x Hx. apply (Permutation_in _ (Permutation_sym P)), in_or_app. right. exact Hx. }
    assert (forall x, In x (q_edges C) -> In x (q_edges q1)) as HinC.
    { intros x Hx. apply (Permutation_in _ (Permutation_sym P)), in_or_app; left; exact Hx. }
    assert (forall x, In x (es ++ fs) -> loose s1 N1 x) as HL.
    { intros x Hx. apply Hin, (op_open O1) in Hx. destruct Hx as (n & Hnn & Ho). pose proof Ho as (k & Hk & Hu). exists (n, k). split; [exact Hnn|]. split; [exact Hk|].
      destruct (wf_slot W1 Hk) as (ed & Hed & Hdis & Hi & _). rewrite Hed. destruct (kinds W1 (ex_intro _ k Hk) Hed) as [(Z1 & Z2 & _)|(m & a2 & _ & _ & _ & _ & Z & _)]; [|destruct (Z n Ho)].
      unfold ends in Hi. rewrite Z1 in Hi. destruct Hi as [Hi|[]]. injection Hi as Hi1 Hi2. destruct ed as [x1 x2 x3 x4]. cbn in *. congruence. }
    assert (map (edim s1) es = pick ts (rows s q)) as Des by (rewrite <- (cl_rows C1); symmetry; apply pick_map; rewrite Lo; exact Hro).
    assert (map (edim s1) fs = pick ts (cols s q)) as Dfs by (rewrite <- (cl_cols C1); symmetry; apply pick_map; rewrite Li; exact Hri).
    assert (map (edim s1) es = map (edim s1) fs) as Hdim by congruence.
    destruct (@connects_ok _ es fs s1 W1 ND) as (s3 & H3 & J).
    { intros x Hx. destruct (HL x Hx) as (p & _ & Q1 & Q2). eauto. }
    { apply dims_Forall2, Hdim. }
    assert (oper s3 C N1) as OC.
    { apply (join_oper W1 O1 J Hin P); [exact Hn|]. apply (op_cps O1). }
    pose proof (join_kept W1 O1 J Hin (cl_kept C1) (cl_fresh C1)) as K3.
    assert (length ot = length it) as HLoi by (unfold ot, it, pick; rewrite !map_length; reflexivity).
    assert (forall e, In e (ot ++ it) -> In e (q_edges q)) as Hinq.
    { intros e Hx. apply in_app_or in Hx. destruct Hx as [Hx|Hx]; [apply in_out, (pick_in Hro Hx)|apply in_in, (pick_in Hri Hx)]. }
    rewrite Ees, Efs in H3. destruct (@trace_edges_ok _ ot it ee s1 s3 Noit HLoi) as (ee' & H4 & Hee); [intros e Hx; apply He, Hinq, Hx|exact H3|].
    assert (forall l, (forall x, In x l -> In x (q_edges q) /\ ~ In x ot) -> mmap (look ee') l s3 = (s3, Some (map (edict ee) l))) as HM.
    { intros l Hl. rewrite mmap_look by (intros x Hx; destruct (Hl x Hx) as [Q1 Q2]; rewrite (Hee x Q2); apply He, Q1).
      do 2 f_equal. apply map_ext_in. intros x Hx. destruct (Hl x Hx) as [_ Q2]. unfold edict. rewrite (Hee x Q2). reflexivity. }
    assert (forall x, In x (drop_at ts (q_out q)) -> ~ In x ot) as Dot.
    { pose proof (Permutation_NoDup (drop_pick_perm HN Hro) No) as Q. apply NoDup_app_iff in Q. apply Q. }
    exists s3, C, N1. split.
    { unfold partial_trace, bind. rewrite !mmap_at_index by assumption. fold ot it.
      rewrite check_spaces_ok; [|exact W| |].
      2:{ intros e Hx. destruct (@oper_edge_on _ s q ns e O) as (n & _ & Q); [apply Hinq, in_or_app; apply in_app_or in Hx; tauto|eauto]. }
      2:{ unfold it, ot. rewrite <- !pick_map by assumption. symmetry. exact Hd. }
      rewrite H1. cbn [fst snd]. rewrite H4. unfold ot at 1, it at 1. rewrite !filter_pick by assumption.
      rewrite !HM.
      - rewrite <- !drop_map. apply (construct_ok iter_perm (jn_wf J) OC).
      - intros x Hx. split; [apply in_ign, Hx|]. intros Q. apply (Nog x (pick_in Hro Q) Hx).
      - intros x Hx. split; [apply in_in, (drop_in Hx)|]. intros Q. apply (Noi x (pick_in Hro Q) (drop_in Hx)).
      - intros x Hx. split; [apply in_out, (drop_in Hx)|]. apply Dot, Hx. }
    split; [split; auto; [apply (jn_wf J)|apply (cl_fresh C1)]|]. split.
    { intros Fw. apply (join_copyable W1 O1 J Hin (q' := C)); [reflexivity|apply (cl_copyable C1)|].
      rewrite Ees, Efs. unfold ot, it, pick. rewrite !map_map. clear - Fw Hsl Hro Hri O1. 
      assert (forall l, (forall k, In k l -> In k ts) -> Forall2 (fun e f => forall n i j, In n (q_cps q1) -> slot s1 (n, i) = Some e -> slot s1 (n, j) = Some f -> i < j)
        (map (fun x => edict ee (nth x (q_out q) 0)) l) (map (fun x => edict ee (nth x (q_in q) 0)) l)) as Q; [|apply Q; auto].
      induction l as [|k l IH]; intros Hl; [constructor|]. cbn [map]. constructor; [|apply IH; intros j Hj; apply Hl; right; exact Hj].
      intros N i j Hc Hi Hj. assert (In k ts) as Hk by (apply Hl; left; reflexivity).
      assert (In (nth k (q_out q) 0) (q_edges q)) as Q1 by (apply in_out, nth_In, Hro, Hk). assert (In (nth k (q_in q) 0) (q_edges q)) as Q2 by (apply in_in, nth_In, Hri, Hk).
      assert (forall e p p', In e (q_edges q) -> slot s1 p = Some (edict ee e) -> slot s1 p' = Some (edict ee e) -> p = p') as Hu.
      { intros e p p' Hx X Y. assert (In (edict ee e) (q_edges q1)) as Z by (unfold q1; rewrite edges_image; apply in_map, Hx).
        apply (op_open O1) in Z. destruct Z as (m & _ & k' & _ & Z). rewrite (Z _ X), (Z _ Y). reflexivity. }
      destruct (Hsl _ Q1) as (n & N' & k1 & S1 & S2 & _ & S4 & S3). destruct (Hsl _ Q2) as (n' & N'' & k2 & T1 & T2 & T5 & _).
      pose proof (Hu _ _ _ Q1 S2 Hi) as E1. pose proof (Hu _ _ _ Q2 T2 Hj) as E2. injection E1 as -> ->. injection E2 as -> ->.
      rewrite (S4 _ T5) in T1. apply (Fw k Hk n i j (S3 Hc) S1 T1). }
    assert (forall x, In x (q_edges C) -> edim s3 x = edim s1 x) as Hed.
    { intros x Hx. apply (join_edim W1 O1 J Hin (HinC x Hx)). apply NDx, Hx. }
    split. { rewrite <- (cl_rows C1). unfold rows. rewrite drop_map. apply map_ext_in. intros x Hx. apply Hed, in_out, Hx. }
    split. { rewrite <- (cl_cols C1). unfold cols. rewrite drop_map. apply map_ext_in. intros x Hx. apply Hed, in_in, Hx. }
    split; [cbn; rewrite !map_length; reflexivity|].
    intros I J' g HI HJ Hg.
    destruct (@entry_exists _ s3 C N1 (drop_at ts I) (drop_at ts J') g (jn_wf J) OC) as (a & A1 & A2 & A3 & ->).
    { apply drop_length. congruence. } { apply drop_length. congruence. } { cbn. rewrite map_length. exact Hg. }
    rewrite (jn_val J); [|apply (op_nodup O1)|exact HL]. rewrite Des.
    apply lsum_ext. intros vs Hvs. apply In_idxs in Hvs. pose proof (valid_length Hvs) as HLv. unfold pick in HLv. rewrite map_length in HLv.
    assert (length es = length ts) as Les by apply map_length. assert (length fs = length ts) as Lfs by apply map_length.
    destruct (@binds_pair a es fs vs ND) as (B1 & B2 & B3); [congruence|congruence|]. set (b := binds Nat.eq_dec (binds Nat.eq_dec a fs vs) es vs) in *.
    assert (forall x, In x (q_edges C) -> b x = a x) as Hb by (intros x Hx; apply B3, NDx, Hx).
    change (entry s ns q (put_at ts vs I) (put_at ts vs J') g) with (cjv false (entry s ns q (put_at ts vs I) (put_at ts vs J') g)).
    rewrite <- (cl_entry C1 (i := put_at ts vs I) (j := put_at ts vs J') (g := g)) by (rewrite ?put_length; assumption).
    symmetry. apply (entry_asg W1 O1).
    - apply put_asg with (a := a); auto; try congruence; [apply (q_nodups O1)|rewrite Lo; exact Hro|]. intros x Hx. apply Hb, in_out, Hx.
    - apply put_asg with (a := a); auto; try congruence; [apply (q_nodups O1)|rewrite Li; exact Hri|]. intros x Hx. apply Hb, in_in, Hx.
    - rewrite <- A3. apply map_ext_in. intros x Hx. apply Hb, in_ign, Hx.
  Qed.

  Theorem partial_trace_reject s q ns ts : wf s -> oper s q ns ->
    (exists k, In k ts /\ (length (q_out q) <= k \/ length (q_in q) <= k)) \/ pick ts (rows s q) <> pick ts (cols s q) ->
    partial_trace iter q ts s = (s, None).
  Proof.
    intros W O H. unfold partial_trace, bind.
    destruct (forallb (fun k => Nat.ltb k (length (q_out q))) ts) eqn:E1; [|rewrite mmap_at_index_bad; [reflexivity|]; apply forallb_false in E1; destruct E1 as (k & Hk & E1); exists k; apply Nat.ltb_ge in E1; auto].
    assert (forall k, In k ts -> k < length (q_out q)) as Hro by (intros k Hk; apply Nat.ltb_lt, (proj1 (forallb_forall _ _) E1 k Hk)).
    rewrite mmap_at_index by exact Hro.
    destruct (forallb (fun k => Nat.ltb k (length (q_in q))) ts) eqn:E2; [|rewrite mmap_at_index_bad; [reflexivity|]; apply forallb_false in E2; destruct E2 as (k & Hk & E2); exists k; apply Nat.ltb_ge in E2; auto].
    assert (forall k, In k ts -> k < length (q_in q)) as Hri by (intros k Hk; apply Nat.ltb_lt, (proj1 (forallb_forall _ _) E2 k Hk)).
    rewrite mmap_at_index by exact Hri.
    destruct H as [(k & Hk & H)|H]; [pose proof (Hro k Hk); pose proof (Hri k Hk); lia|].
    rewrite check_spaces_bad; [reflexivity|exact W| |].
    - intros e Hx. apply in_app_or in Hx. destruct (@oper_edge_on _ s q ns e O) as (n & _ & Q); [destruct Hx as [Hx|Hx]; [apply in_in, (pick_in Hri Hx)|apply in_out, (pick_in Hro Hx)]|eauto].
    - rewrite <- !pick_map by assumption. intros Q. apply H. symmetry. exact Q.
  Qed.

  (** ** the full trace *)
  Theorem trace_ok s q ns : wf s -> oper s q ns -> copyable s q -> rows s q = cols s q ->
    exists s' C nC, trace iter q s = (s', Some C) /\ made s s' C nC /\ q_out C = [] /\ q_in C = [] /\ length (q_ign C) = length (q_ign q) /\
      (forward s q (seq 0 (length (q_in q))) -> copyable s' C) /\
      (forall g, length g = length (q_ign q) -> entry s' nC C [] [] g = lsum (idxs (rows s q)) (fun i => entry s ns q i i g)).
  Proof.
    intros W O K E. assert (length (q_out q) = length (q_in q)) as HL by (unfold rows, cols in E; rewrite <- (map_length (edim s) (q_out q)), E, map_length; reflexivity).
    destruct (@partial_trace_ok s q ns (seq 0 (length (q_in q))) W O K (seq_NoDup _ _)) as (s' & C & nC & H & Md & F & R1 & C1 & G & V).
    { intros k Hk. apply in_seq in Hk. lia. } { rewrite E. reflexivity. }
    assert (length (rows s q) = length (q_in q)) as Lr by (unfold rows; rewrite map_length; exact HL). assert (length (cols s q) = length (q_in q)) as Lc by (unfold cols; apply map_length).
    exists s', C, nC. split; [exact H|]. split; [exact Md|].
    split; [rewrite <- Lr, drop_all in R1; unfold rows in R1; apply map_eq_nil in R1; exact R1|].
    split; [rewrite <- Lc, drop_all in C1; unfold cols in C1; apply map_eq_nil in C1; exact C1|]. split; [exact G|]. split; [exact F|].
    intros g Hg. specialize (V (rows s q) (rows s q) g). rewrite Lr, HL in V. specialize (V eq_refl eq_refl Hg).
    rewrite <- Lr, drop_all, pick_all in V. rewrite V. apply lsum_ext. intros vs Hvs. apply In_idxs in Hvs. rewrite put_all by apply (valid_length Hvs). reflexivity.
  Qed.
End QT.
