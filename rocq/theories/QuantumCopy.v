(** * QuantumCopy: copying the network of an operator *)
From Verif Require Import Prelude Algebra Tensor Einsum EinsumFacts NetworkFacts Graph GraphBase GraphConnect GraphContract GraphValue GraphQuery GraphQueryFacts GraphCopy GraphCopyFacts GraphDensity GraphOps NetIso Quantum QuantumSpec QuantumFacts QuantumNodes.
Set Implicit Arguments.
Unset Strict Implicit.

Section QC.
  Context {R : cjr}.
  Notation st := (@st R).
  Variable iter : list nat -> list nat.
  Hypothesis iter_perm : forall l, Permutation (iter l) l.
  Implicit Types (s : st) (q : quop) (e : eid) (n m : nid).

  (** [q'] is a copy of [q] in the later heap [s'] *)
  Record cloned (conj : bool) s s' q q' (ns Ns : list nid) : Prop := {
    cl_wf : wf s';
    cl_kept : kept s s';
    cl_fresh : fresh_nodes s Ns;
    cl_oper : oper s' q' Ns;
    cl_copyable : copyable s' q';
    cl_rows : rows s' q' = rows s q;
    cl_cols : cols s' q' = cols s q;
    cl_igns : map (edim s') (q_ign q') = map (edim s) (q_ign q);
    cl_entry : forall i j g, length i = length (q_out q) -> length j = length (q_in q) -> length g = length (q_ign q) ->
      entry s' Ns q' i j g = cjv conj (entry s ns q i j g)
  }.

  Definition image (d : list (nid * nid)) (ee : list (eid * eid)) q : quop :=
    Qu (map (edict ee) (q_out q)) (map (edict ee) (q_in q)) (map (edict d) (q_ref q)) (map (edict ee) (q_ign q)) (cps_of d (q_cps q)).

  Lemma edges_image d ee q : q_edges (image d ee q) = map (edict ee) (q_edges q).
  Proof. unfold q_edges, image. cbn. rewrite !map_app. reflexivity. Qed.

  Lemma edict_get ee e f : dget ee e = Some f -> edict ee e = f.
  Proof. unfold edict. intros ->. reflexivity. Qed.

  Lemma binds_map2 (a b f : nat -> nat) (es : list nat) x : NoDup (map f es) -> In x es -> binds Nat.eq_dec b (map f es) (map a es) (f x) = a x.
  Proof.
    revert b. induction es as [|e es IH]; intros b HN Hx; [destruct Hx|]. cbn [map binds] in *. apply NoDup_cons_iff in HN. destruct HN as [He HN]. destruct Hx as [->|Hx].
    - rewrite binds_other by exact He. apply upd_same.
    - apply IH; assumption.
  Qed.

  Lemma mmap_look (d : list (nat * nat)) l s : (forall x, In x l -> exists y, dget d x = Some y) -> mmap (look d) l s = (s, Some (map (edict d) l)).
  Proof.
    induction l as [|x r IH]; intros H; [reflexivity|]. cbn [mmap map]. unfold bind at 1, look at 1. destruct (H x (or_introl eq_refl)) as [y Hy]. rewrite Hy.
    unfold ret at 1. unfold bind. rewrite IH by (intros z Hz; apply H; right; exact Hz). rewrite (edict_get Hy). reflexivity.
  Qed.

  Lemma Forall2_dget (d : list (nat * nat)) ns Ns N : Forall2 (fun n N => dget d n = Some N) ns Ns -> In N Ns <-> exists n, In n ns /\ dget d n = Some N.
  Proof.
    intros HF. induction HF as [|x y l l' Hx _ IH]; [split; [intros []|intros (? & [] & _)]|]. split.
    - intros [<-|K]; [exists x; split; [left; reflexivity|exact Hx]|]. apply IH in K. destruct K as (n & Hn & K). exists n. split; [right; exact Hn|exact K].
    - intros (n & [->|Hn] & K); [left; congruence|]. right. apply IH. exists n. auto.
  Qed.

  (** the properties of the copy dictionaries that the operators' edges need *)
  Section Spec.
    Variables (conj : bool) (s s' : st) (q : quop) (ns Ns : list nid) (d : list (nid * nid)) (ee : list (eid * eid)).
    Hypothesis (W : wf s) (O : oper s q ns) (C : copy_spec conj s s' ns d ee) (HF : Forall2 (fun n N => dget d n = Some N) ns Ns) (HND : NoDup Ns).

    Lemma In_Ns N : In N Ns <-> exists n, In n ns /\ dget d n = Some N.
    Proof using HF. apply (Forall2_dget N HF). Qed.
    Lemma copy_kept : kept s s'.
    Proof using C.
      split.
      - apply (cs_old C).
      - apply (cs_olde C).
      - intros m n e Hm H1 H2. destruct (cs_all C (on_node H2)) as [Q|[x Hx]]; [exact Q|]. exfalso. apply (cs_sep C Hx H2 Hm H1).
    Qed.
    Lemma copy_slot_back n N k f : In n ns -> dget d n = Some N -> slot s' (N, k) = Some f -> exists e, slot s (n, k) = Some e.
    Proof using C O.
      intros Hn HN Hk. destruct (is_node_Some (op_node O Hn)) as [nd Hnd]. destruct (cs_node C HN Hnd) as (es' & Q1 & Q2).
      unfold slot in *. cbn [fst snd] in *. rewrite Q1 in Hk. rewrite Hnd. cbn in Hk. destruct (nth_error (n_edges nd) k) eqn:E; [eauto|].
      apply nth_error_None in E. assert (k < length es') by (apply nth_error_Some; congruence). lia.
    Qed.
    Lemma copy_slot_fwd n N k e : dget d n = Some N -> slot s (n, k) = Some e -> exists f, slot s' (N, k) = Some f.
    Proof using C W.
      intros HN Hk. destruct (wf_slot W Hk) as (ed & He & _). destruct (cs_ends C HN Hk He) as (e' & _ & Q & _). eauto.
    Qed.
    Lemma copy_conn n m : In n ns -> connected s n m -> forall N M', dget d n = Some N -> dget d m = Some M' -> connected s' N M'.
    Proof using C O W.
      intros Hn H. induction H as [n|n m l e H IH H1 H2]; intros N M' HN HM; [rewrite HN in HM; injection HM as ->; constructor|].
      assert (In m ns) as Hm by (apply (op_nodes O) in Hn; destruct Hn as (x & Hx & K); apply (op_nodes O); exists x; split; [exact Hx|exact (connected_trans K H)]).
      apply (cs_dom C) in Hm. destruct Hm as [Q HQ]. destruct H1 as (k & Hk), H2 as (j & Hj). destruct (copy_slot_fwd HQ Hk) as [f Hf].
      apply conn_step with (m := Q) (e := f); [apply (IH Hn N Q HN HQ)|exists k; exact Hf|exists j].
      rewrite <- Hf. symmetry. apply (cs_slot C HQ HM); congruence.
    Qed.
    Lemma copy_conn_back N M' : connected s' N M' -> forall n, dget d n = Some N -> exists m, dget d m = Some M' /\ connected s n m.
    Proof using C O.
      intros H. induction H as [N|N Q M' e H IH H1 H2]; intros n HN; [exists n; split; [exact HN|constructor]|].
      destruct (IH n HN) as (m & Hm & K).
      assert (exists l, dget d l = Some M') as [l Hl].
      { destruct (cs_all C (on_node H2)) as [Q'|Q']; [|exact Q']. exfalso. apply (cs_sep C Hm H1 Q' H2). }
      exists l. split; [exact Hl|]. destruct H1 as (k & Hk), H2 as (j & Hj).
      assert (In m ns) as Im by (apply (cs_dom C); eauto). assert (In l ns) as Il by (apply (cs_dom C); eauto).
      destruct (copy_slot_back Im Hm Hk) as [e1 E1]. destruct (copy_slot_back Il Hl Hj) as [e2 E2].
      assert (slot s (m, k) = slot s (l, j)) as E by (apply (cs_slot C Hm Hl); congruence).
      apply conn_step with (m := m) (e := e1); [exact K|exists k; exact E1|exists j; congruence].
    Qed.
    (** the copy of an edge of the operator *)
    Lemma copy_q_edge e : In e (q_edges q) -> exists n N k, In n ns /\ dget d n = Some N /\ slot s (n, k) = Some e /\ slot s' (N, k) = Some (edict ee e) /\ dget ee e = Some (edict ee e) /\
      open_on s n e /\ open_on s' N (edict ee e).
    Proof using C O W.
      intros He. apply (op_open O) in He. destruct He as (n & Hn & Ho). pose proof Ho as (k & Hk & Hu).
      pose proof Hn as Hn0. apply (cs_dom C) in Hn0. destruct Hn0 as [N HN].
      assert (exists f, dget ee e = Some f) as [f Hf] by (apply (cs_edom C); exists n; split; [exact Hn|exists k; exact Hk]).
      assert (slot s' (N, k) = Some f) as Hs.
      { refine (cs_edge C Hf _ HN Hk). intros m (p & p' & Hpp & _ & _ & H1 & H2). apply Hpp. rewrite (Hu _ H1), (Hu _ H2). reflexivity. }
      destruct (@copy_outside _ conj s s' ns d ee n N k e (op_node O) C HN Hk) as (f' & Hf' & Hop).
      { intros m l _ Hm. apply Hu, Hm. }
      rewrite Hs in Hf'. injection Hf' as <-. rewrite (edict_get Hf). exists n, N, k. repeat split; auto.
    Qed.

    Lemma oper_image : oper s' (image d ee q) Ns.
    Proof using C HF HND O W.
      assert (forall e, In e (q_out q ++ q_in q) -> In e (q_edges q)) as Hsub by (intros e He; unfold q_edges; rewrite app_assoc; apply in_or_app; left; exact He).
      split.
      - exact HND.
      - intros M'. rewrite In_Ns. cbn [q_out q_in q_ref image]. split.
        + intros (m & Hm & HM). pose proof Hm as Hm0. apply (op_nodes O) in Hm. destruct Hm as (n & Hn & K).
          assert (In n ns) as In0 by (apply (op_nodes O); exists n; split; [exact Hn|constructor]).
          pose proof In0 as I1. apply (cs_dom C) in I1. destruct I1 as [N HN]. exists N. split; [|apply (copy_conn In0 K HN HM)].
          destruct Hn as [(e & He & Ho)|Hn].
          * left. exists (edict ee e). split; [rewrite <- map_app; apply in_map, He|].
            destruct (copy_q_edge (Hsub e He)) as (n' & N' & k & _ & H1 & H2 & H3 & _ & (k' & _ & Hu) & _).
            destruct Ho as (j & Hj). pose proof (Hu (n, j) Hj) as E1. pose proof (Hu (n', k) H2) as E2. rewrite <- E2 in E1. injection E1 as -> ->.
            rewrite H1 in HN. injection HN as ->. exists k. exact H3.
          * right. apply in_map_iff. exists n. split; [apply (edict_get HN)|exact Hn].
        + intros (N & Hn & K).
          assert (exists n, ((exists e, In e (q_out q ++ q_in q) /\ on s n e) \/ In n (q_ref q)) /\ dget d n = Some N) as (n & Hn' & HN).
          { destruct Hn as [(f & Hf & Ho)|Hn].
            - rewrite <- map_app in Hf. apply in_map_iff in Hf. destruct Hf as (e & <- & He).
              destruct (copy_q_edge (Hsub e He)) as (n & N' & k & _ & H1 & H2 & H3 & _ & _ & (k' & _ & Hu)). exists n. split; [left; exists e; split; [exact He|exists k; exact H2]|].
              destruct Ho as (j & Hj). pose proof (Hu (N, j) Hj) as E1. injection E1 as -> _. exact H1.
            - apply in_map_iff in Hn. destruct Hn as (n & <- & Hn). exists n. split; [right; exact Hn|].
              assert (In n ns) as Q by (apply (op_nodes O); exists n; split; [right; exact Hn|constructor]).
              apply (cs_dom C) in Q. destruct Q as [N HN]. rewrite (edict_get HN). exact HN. }
          destruct (copy_conn_back K HN) as (m & Hm & K'). exists m. split; [|exact Hm]. apply (cs_dom C). eauto.
      - rewrite edges_image. assert (forall e f, In e (q_edges q) -> In f (q_edges q) -> edict ee e = edict ee f -> e = f) as Inj.
        { intros e f He Hf E. destruct (copy_q_edge He) as (n & N & k & _ & H1 & H2 & H3 & _). destruct (copy_q_edge Hf) as (m & M' & j & _ & H1' & H2' & H3' & _).
          assert (slot s (n, k) = slot s (m, j)) as Q by (apply (cs_slot C H1 H1'); congruence). congruence. }
        pose proof (op_edges O) as ND. revert ND Inj. clear. induction (q_edges q) as [|x r IH]; intros ND Inj; [constructor|]. cbn. apply NoDup_cons_iff in ND. destruct ND as [Hx ND].
        constructor; [|apply IH; [exact ND|intros; apply Inj; try right; assumption]].
        intros K. apply in_map_iff in K. destruct K as (y & Hy & Hin). apply Hx. rewrite (Inj x y); [exact Hin|left; reflexivity|right; exact Hin|congruence].
      - intros f. rewrite edges_image, in_map_iff. split.
        + intros (e & <- & He). destruct (copy_q_edge He) as (n & N & k & Hn & H1 & _ & _ & _ & _ & Ho). exists N. split; [apply In_Ns; eauto|exact Ho].
        + intros (N & HN & (k & Hk & Hu)). apply In_Ns in HN. destruct HN as (n & Hn & HN). destruct (copy_slot_back Hn HN Hk) as [e He].
          assert (In e (q_edges q)) as Hq.
          { apply (op_open O). exists n. split; [exact Hn|]. exists k. split; [exact He|]. intros [m j] Hm.
            assert (In m ns) as Im by (apply (@oper_closed _ s q ns n m e O Hn); [exists k|exists j]; assumption).
            apply (cs_dom C) in Im. destruct Im as [M' HM]. assert (slot s' (N, k) = slot s' (M', j)) as E by (apply (cs_slot C HN HM); congruence).
            assert ((M', j) = (N, k)) as E' by (apply Hu; congruence). injection E' as -> ->. rewrite (cs_inj C HM HN). reflexivity. }
          exists e. split; [|exact Hq]. destruct (copy_q_edge Hq) as (n' & N' & k' & _ & H1 & H2 & H3 & _ & (j & _ & Hu') & _).
          pose proof (Hu' _ He) as E1. pose proof (Hu' _ H2) as E2. rewrite <- E2 in E1. injection E1 as -> ->. rewrite H1 in HN. injection HN as ->. congruence.
      - intros E. rewrite E in HF. inversion HF as [E1|]. apply (op_some O). symmetry. exact E1.
      - intros N HN. apply In_Ns in HN. destruct HN as (n & Hn & HN). destruct (is_node_Some (op_node O Hn)) as [nd Hnd]. destruct (cs_node C HN Hnd) as (es' & Q1 & _).
        unfold is_node. congruence.
      - intros N HN. apply In_Ns in HN. destruct HN as (n & Hn & HN). destruct (is_node_Some (op_node O Hn)) as [nd Hnd]. destruct (cs_node C HN Hnd) as (es' & Q1 & _).
        intros nd' Hnd'. rewrite Q1 in Hnd'. injection Hnd' as <-. cbn [n_names n_t]. destruct (op_named O Hn Hnd) as [T1 T2]. split; [exact T1|].
        rewrite T2. destruct conj; reflexivity.
      - intros N HN. cbn [image q_cps] in HN. unfold cps_of in HN. apply in_flat_map in HN. destruct HN as (n & Hn & HN). destruct (dget d n) as [N'|] eqn:E; [|destruct HN].
        destruct HN as [<-|[]]. apply In_Ns. exists n. split; [apply (op_cps O Hn)|exact E].
    Qed.

    Lemma copyable_image : copyable s q -> copyable s' (image d ee q).
    Proof using C O W.
      intros K N e' ed' a2 HN (k & Hk) He' H1 H2. cbn [image q_cps] in HN. unfold cps_of in HN. apply in_flat_map in HN. destruct HN as (n & Hn & HN). destruct (dget d n) as [N'|] eqn:E; [|destruct HN].
      destruct HN as [<-|[]]. destruct (copy_slot_back (op_cps O Hn) E Hk) as [e He]. destruct (wf_slot W He) as (ed & Hed & _).
      destruct (cs_ends C E He Hed) as (f & fd & Q1 & Q2 & Q3). rewrite Hk in Q1. injection Q1 as <-. rewrite He' in Q2. injection Q2 as <-.
      unfold ends in Q3. rewrite H1, H2 in Q3. destruct ed as [x a [[y b]|] ds]; cbn [e_n1 e_a1 e_2 flat_map fst snd app] in Q3.
      - destruct (dget d x) as [X|] eqn:EX; destruct (dget d y) as [Y|] eqn:EY; cbn in Q3; try discriminate. injection Q3 as E1 E2 E3 E4. subst X Y.
        assert (x = n) as -> by apply (cs_inj C EX E). assert (y = n) as -> by apply (cs_inj C EY E).
        rewrite E2, E4. apply (K n e (Edge n a (Some (n, b)) ds) b Hn); auto. exists k. exact He.
      - destruct (dget d x); cbn in Q3; discriminate.
    Qed.

    Lemma edim_image e : In e (q_edges q) -> edim s' (edict ee e) = edim s e.
    Proof using C O W.
      intros He. destruct (copy_q_edge He) as (n & N & k & Hn & H1 & H2 & H3 & _). pose proof (edim_dimat W H2) as D1. pose proof (edim_dimat (cs_wf C) H3) as D2.
      destruct (is_node_Some (op_node O Hn)) as [nd Hnd]. destruct (cs_node C H1 Hnd) as (es' & Q1 & _). unfold dimat in *. cbn [fst snd] in *. rewrite Hnd in D1. rewrite Q1 in D2. cbn in D2.
      assert (shape (if conj then conj_t (n_t nd) else n_t nd) = shape (n_t nd)) as E by (destruct conj; reflexivity). rewrite E in D2. congruence.
    Qed.

    Lemma image_cloned : copyable s q -> cloned conj s s' q (image d ee q) ns Ns.
    Proof using C HF HND O W.
      intros K. pose proof oper_image as O'. split; auto.
      - apply (cs_wf C).
      - exact copy_kept.
      - intros N HN. apply In_Ns in HN. destruct HN as (n & _ & HN). apply (cs_new C HN).
      - apply copyable_image, K.
      - unfold rows. cbn. rewrite map_map. apply map_ext_in. intros e He. apply edim_image. unfold q_edges. apply in_or_app. left. exact He.
      - unfold cols. cbn. rewrite map_map. apply map_ext_in. intros e He. apply edim_image. unfold q_edges. apply in_or_app. right. apply in_or_app. left. exact He.
      - cbn. rewrite map_map. apply map_ext_in. intros e He. apply edim_image. unfold q_edges. apply in_or_app. right. apply in_or_app. right. exact He.
      - intros i j g Hi Hj Hg. destruct (entry_exists W O Hi Hj Hg) as (a & A1 & A2 & A3 & ->).
        set (a' := binds Nat.eq_dec (fun _ => 0) (map (edict ee) (q_edges q)) (map a (q_edges q))).
        assert (forall e, In e (q_edges q) -> a' (edict ee e) = a e) as Ha.
        { intros e He. apply binds_map2; [|exact He]. rewrite <- (edges_image d). apply (op_edges O'). }
        rewrite (@entry_asg _ s' (image d ee q) Ns i j g a' (cs_wf C) O').
        + apply (copy_value W (op_node O) C HF). intros n N k e e' HN Hk Hk' Hcnt.
          apply (count_open W) in Hcnt; [|intros n0 m f; apply (oper_closed O)]. apply (op_open O) in Hcnt.
          destruct (copy_q_edge Hcnt) as (n' & N' & k' & _ & H1 & H2 & H3 & _ & (j' & _ & Hu') & _).
          pose proof (Hu' _ Hk) as E1. pose proof (Hu' _ H2) as E2. rewrite <- E2 in E1. injection E1 as -> ->. rewrite H1 in HN. injection HN as ->.
          rewrite H3 in Hk'. injection Hk' as <-. apply Ha, Hcnt.
        + cbn. rewrite map_map, <- A1. apply map_ext_in. intros e He. apply Ha. unfold q_edges. apply in_or_app. left. exact He.
        + cbn. rewrite map_map, <- A2. apply map_ext_in. intros e He. apply Ha. unfold q_edges. apply in_or_app. right. apply in_or_app. left. exact He.
        + cbn. rewrite map_map, <- A3. apply map_ext_in. intros e He. apply Ha. unfold q_edges. apply in_or_app. right. apply in_or_app. right. exact He.
    Qed.
  End Spec.

  Lemma back_trace_no s q n : wf s -> is_node s n -> copyable s q -> In n (q_cps q) -> back_trace s n = false.
  Proof.
    intros W Hn K Hc. unfold back_trace. destruct (is_node_Some Hn) as [nd Hnd]. rewrite Hnd. destruct (existsb _ _) eqn:E; [|reflexivity]. exfalso.
    apply existsb_exists in E. destruct E as (e & He & Hb). destruct (s_edges s e) as [ed|] eqn:Ee; [|discriminate]. destruct (e_2 ed) as [[n2 a2]|] eqn:E2; [|discriminate].
    apply andb_true_iff in Hb. destruct Hb as [H1 H2]. apply Nat.eqb_eq in H1. apply Nat.ltb_lt in H2.
    assert (on s n e) as Ho by (apply (on_In e Hnd), He). destruct Ho as (k & Hk). pose proof (live_in_ends W Hk Ee) as Hin. unfold ends in Hin. rewrite E2 in Hin.
    assert (e_n1 ed = n) as E3 by (destruct Hin as [Hin|[Hin|[]]]; congruence). rewrite E3 in H1. subst n2.
    pose proof (K n e ed a2 Hc (ex_intro _ k Hk) Ee E3 E2). lia.
  Qed.

  (** [copy(self.nodes, conj)] copies the operator *)
  Theorem q_copy_ok conj s q ns : wf s -> oper s q ns -> copyable s q ->
    exists s' d ee Ns, q_copy iter q conj s = (s', Some (d, ee)) /\ cloned conj s s' q (image d ee q) ns Ns /\
      (forall (t : st) e, In e (q_edges q) -> look ee e t = (t, Some (edict ee e))) /\
      (forall e, In e (q_edges q) -> exists f, dget ee e = Some f) /\ (forall n, In n (q_ref q) -> exists N, dget d n = Some N) /\
      (forall N, In N (map snd d) <-> In N Ns) /\ (forall m, is_node s' m -> is_node s m \/ In m Ns) /\
      (forall e, In e (q_edges q) -> exists n N k, slot s (n, k) = Some e /\ slot s' (N, k) = Some (edict ee e) /\ dget d n = Some N /\
        (forall m, dget d m = Some N -> m = n) /\ (In N (cps_of d (q_cps q)) -> In n (q_cps q))).
  Proof.
    intros W O K. destruct (q_nodes_ok iter_perm W O) as (l & H1 & P & O').
    destruct (copy_ok iter_perm conj W (op_nodup O') (fun n Hn => Logic.conj (op_node O' Hn) (op_named O' Hn))) as (s' & d & ee & H2 & C & Hfd & HF).
    set (Ns := seq (s_nn s) (length l)) in *.
    pose proof (image_cloned W O' C HF (seq_NoDup _ _) K) as CL.
    exists s', d, ee, Ns. split; [|split; [|split; [|split; [|split; [|split; [|split]]]]]].
    - unfold q_copy, bind. rewrite H1. replace (forallb _ _) with true; [cbn [guard]; unfold ret; exact H2|].
      symmetry. apply forallb_forall. intros n Hn. apply filter_In in Hn. destruct Hn as [Hn _]. rewrite (@back_trace_no s q n W (op_node O (op_cps O Hn)) K Hn). reflexivity.
    - destruct CL. split; auto. intros i j g Hi Hj Hg. rewrite cl_entry0 by assumption. f_equal. apply entry_perm, Permutation_sym, P.
    - intros t e He. destruct (copy_q_edge W O' C He) as (_ & _ & _ & _ & _ & _ & _ & Q & _). unfold look. rewrite Q. reflexivity.
    - intros e He. destruct (copy_q_edge W O' C He) as (_ & _ & _ & _ & _ & _ & _ & Q & _). eauto.
    - intros n Hn. apply (cs_dom C). apply (op_nodes O'). exists n. split; [right; exact Hn|constructor].
    - intros N. rewrite (In_Ns HF). split.
      + intros Hd. apply in_map_iff in Hd. destruct Hd as ([n N'] & E & Hd). cbn in E. subst N'.
        assert (dget d n = Some N) as Q by (apply dget_NoDup; [rewrite Hfd; apply NoDup_rev, (op_nodup O')|exact Hd]).
        exists n. split; [apply (cs_dom C); eauto|exact Q].
      + intros (n & _ & Q). apply dget_In in Q. apply in_map_iff. exists (n, N). auto.
    - intros m Hm. destruct (cs_all C Hm) as [Q|[n Hn]]; [left; exact Q|right]. apply (In_Ns HF). exists n. split; [apply (cs_dom C); eauto|exact Hn].
    - intros e He. destruct (copy_q_edge W O' C He) as (n & N & k & _ & Q1 & Q2 & Q3 & _). exists n, N, k. split; [exact Q2|]. split; [exact Q3|]. split; [exact Q1|]. split; [intros m Q; apply (cs_inj C Q Q1)|].
      intros Hc. apply in_flat_map in Hc. destruct Hc as (m & Hm & Hc). destruct (dget d m) as [N'|] eqn:E; [|destruct Hc]. destruct Hc as [->|[]]. rewrite (cs_inj C Q1 E). exact Hm.
  Qed.
End QC.
