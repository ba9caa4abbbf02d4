(** * QuantumMake: operators from tensors, identities, scalar multiples, norm, projector *)
From Verif Require Import Prelude Algebra Tensor TensorFacts Einsum EinsumFacts NetworkFacts Graph GraphBase GraphConnect GraphContract GraphOps GraphValue GraphLaws GraphJoin GraphTotal GraphQuery GraphQueryFacts GraphCopy GraphCopyFacts GraphDensity CopyTensor CopyTensorSpec CopyTensorBucket CopyTensorMain Quantum QuantumSpec QuantumFacts QuantumNodes QuantumCopy QuantumJoin QuantumUnion QuantumOps QuantumTrace.
Set Implicit Arguments.
Unset Strict Implicit.

Section QM.
  Context {R : cjr}.
  Notation st := (@st R).
  Variable iter : list nat -> list nat.
  Hypothesis iter_perm : forall l, Permutation (iter l) l.
  Implicit Types (s : st) (q A B : quop) (e f : eid) (n m : nid) (ts : list nat) (t : tensor R).
  Add Ring Rqm : (rsr R).

  (** ** one new node *)
  Record leaf s s1 t n (es : list eid) : Prop := {
    lf_wf : wf s1;
    lf_kept : kept s s1;
    lf_fresh : ~ is_node s n;
    lf_node : s_nodes s1 n = Some (Node t es (seq 0 (rank t)));
    lf_nodup : NoDup es;
    lf_len : length es = rank t;
    lf_slot : forall k, k < rank t -> slot s1 (n, k) = Some (nth k es 0);
    lf_dangling : forall e, In e es -> exists k, s_edges s1 e = Some (Edge n k None false);
    lf_open : forall e, In e es -> open_on s1 n e
  }.
  Lemma leaf_ok s t : wf s -> exists s1 n es, new_node t None s = (s1, Some n) /\ leaf s s1 t n es.
  Proof.
    intros W. destruct (@new_node_succ R s t None Logic.I) as (s1 & n & H). exists s1, n, (seq (s_ne s) (rank t)). split; [exact H|].
    destruct (new_node_wf W H) as (W1 & Hl & -> & Hnone & _ & (nms & Hnl & Hnm & _ & Hnd) & Hm & He & _). rewrite (Hnm eq_refl) in Hnd.
    assert (forall k, k < rank t -> slot s1 (s_nn s, k) = Some (nth k (seq (s_ne s) (rank t)) 0)) as Hsl.
    { intros k Hk. unfold slot. cbn [fst snd]. rewrite Hnd. cbn [n_edges]. apply nth_error_nth'. rewrite seq_length. exact Hk. }
    assert (forall e, In e (seq (s_ne s) (rank t)) -> exists k, k < rank t /\ slot s1 (s_nn s, k) = Some e) as Hin.
    { intros e Hx. apply in_seq in Hx. exists (e - s_ne s). split; [lia|]. rewrite Hsl by lia. rewrite seq_nth by lia. f_equal. lia. }
    split; auto using seq_NoDup, seq_length.
    - split.
      + intros m Q. apply Hm. intros ->. apply Q, Hnone.
      + intros m e (k & Q). apply He. apply (slot_lt W Q).
      + intros m n e Q (k & Q1) (k' & Q2) Z. destruct (Nat.eq_dec n (s_nn s)) as [->|Hne].
        * pose proof (Hl _ _ Q2) as E. pose proof (live_in_ends W1 Q1 E) as Hi. cbn in Hi. destruct Hi as [Hi|[]]. injection Hi as <- _. apply Q, Hnone.
        * unfold slot in Q2. cbn [fst snd] in Q2. rewrite (Hm _ Hne), Z in Q2. discriminate.
    - intros e Hx. destruct (Hin e Hx) as (k & _ & Q). exists k. apply Hl, Q.
    - intros e Hx. destruct (Hin e Hx) as (k & _ & Q). exists k. split; [exact Q|]. intros p Hp. pose proof (live_in_ends W1 Hp (Hl _ _ Q)) as Hi. destruct Hi as [<-|[]]. reflexivity.
  Qed.

  Section Leaf.
    Variables (s s1 : st) (t : tensor R) (n : nid) (es : list eid).
    Hypothesis L : leaf s s1 t n es.
    Lemma leaf_on e : on s1 n e <-> In e es.
    Proof. apply (on_In e (lf_node L)). Qed.
    Lemma leaf_conn m : connected s1 n m -> m = n.
    Proof.
      assert (forall x y, connected s1 x y -> x = n -> y = n) as H; [|intros H1; apply (H _ _ H1 eq_refl)].
      induction 1 as [x|x y z e H1 IH H2 H3]; [auto|]. intros Hx. rewrite (IH Hx) in H2. apply leaf_on, (lf_open L) in H2. destruct H2 as (k & _ & Hu).
      destruct H3 as (k' & H3). pose proof (Hu _ H3) as Q. injection Q as -> _. reflexivity.
    Qed.
    Lemma leaf_oper q : Permutation (q_edges q) es -> (forall m, In m (q_ref q) -> m = n) -> (q_ref q = [] -> q_out q ++ q_in q <> []) ->
      (forall m, In m (q_cps q) -> m = n) -> oper s1 q [n].
    Proof.
      intros P Hr Hne Hc. split.
      - constructor; [intros []|constructor].
      - intros m. split.
        + intros [<-|[]]. exists n. split; [|constructor]. destruct (q_ref q) as [|r l] eqn:E; [|right; left; apply Hr; left; reflexivity].
          left. destruct (q_out q ++ q_in q) as [|e l] eqn:E'; [destruct (Hne eq_refl eq_refl)|]. exists e. split; [left; reflexivity|].
          apply leaf_on, (Permutation_in _ P). unfold q_edges. rewrite app_assoc, E'. left. reflexivity.
        + intros (m' & H & K). assert (m' = n) as ->; [|left; symmetry; apply leaf_conn, K]. destruct H as [(e & He & H)|H]; [|apply Hr, H].
          assert (In e es) as Q by (apply (Permutation_in _ P); unfold q_edges; rewrite app_assoc; apply in_or_app; left; exact He).
          apply (lf_open L) in Q. destruct Q as (k & _ & Q). destruct H as (k' & H). pose proof (Q _ H) as Z. injection Z as -> _. reflexivity.
      - apply (Permutation_NoDup (Permutation_sym P)), (lf_nodup L).
      - intros e. rewrite (Permutation_in' eq_refl P). split.
        + intros He. exists n. split; [left; reflexivity|apply (lf_open L He)].
        + intros (m & [<-|[]] & k & Hk & _). apply leaf_on. exists k. exact Hk.
      - discriminate.
      - intros m [<-|[]]. unfold is_node. rewrite (lf_node L). discriminate.
      - intros m [<-|[]] nd H. rewrite (lf_node L) in H. injection H as <-. cbn. split; [apply seq_NoDup|apply seq_length].
      - intros m Hm. left. symmetry. apply Hc, Hm.
    Qed.
    Lemma leaf_copyable q : (forall m, In m (q_cps q) -> m = n) -> copyable s1 q.
    Proof.
      intros Hc m e ed a2 Hm Ho He _ H2. rewrite (Hc m Hm) in Ho. apply leaf_on, (lf_dangling L) in Ho. destruct Ho as (k & Q). rewrite He in Q. injection Q as ->. discriminate.
    Qed.
    Lemma leaf_value a : netval s1 [n] a = elt t (map a es).
    Proof.
      unfold netval, value, net_of. cbn [map]. unfold fac. rewrite (lf_node L). cbn [n_t n_edges].
      assert (forall l : list nat, l = es ++ [] -> repeated Nat.eq_dec l = []) as Hn.
      { intros l ->. rewrite app_nil_r. destruct (repeated _ _) as [|x l] eqn:E; [reflexivity|]. assert (In x (repeated Nat.eq_dec es)) as Q by (rewrite E; left; reflexivity).
        apply In_repeated in Q. pose proof (proj1 (NoDup_count_occ Nat.eq_dec es) (lf_nodup L) x). lia. }
      rewrite Hn by reflexivity. change (elt t (map a es) *! r1 = elt t (map a es)). ring.
    Qed.
    Lemma leaf_dim k : k < rank t -> edim s1 (nth k es 0) = nth k (shape t) 0.
    Proof.
      intros Hk. pose proof (edim_dimat (lf_wf L) (lf_slot L Hk)) as H. unfold dimat in H. cbn [fst snd] in H. rewrite (lf_node L) in H. cbn [n_t] in H.
      symmetry. apply nth_error_nth. exact H.
    Qed.
    Lemma leaf_edges_of ax : (forall k, In k ax -> k < rank t) -> mmap (edge_of n) ax s1 = (s1, Some (pick ax es)).
    Proof.
      induction ax as [|k ax IH]; intros Hr; [reflexivity|]. cbn [mmap]. unfold bind at 1. unfold edge_of at 1, bind at 1, get_node. rewrite (lf_node L). cbn [n_edges].
      assert (k < length es) as Hk by (rewrite (lf_len L); apply Hr; left; reflexivity). rewrite (nth_error_nth' es 0 Hk). cbn [ret].
      unfold bind. rewrite IH by (intros j Hj; apply Hr; right; exact Hj). reflexivity.
    Qed.
    Lemma leaf_made q : oper s1 q [n] -> made s s1 q [n].
    Proof. intros O. split; [apply (lf_wf L)|apply (lf_kept L)| |exact O]. intros m [<-|[]]. apply (lf_fresh L). Qed.
  End Leaf.

  (** ** from_tensor *)
  Lemma pick_perm (l p : list nat) : Permutation p (seq 0 (length l)) -> Permutation (pick p l) l.
  Proof. intros P. transitivity (pick (seq 0 (length l)) l); [apply Permutation_map, P|]. rewrite pick_all. reflexivity. Qed.
  Lemma pick_app (p p' l : list nat) : pick (p ++ p') l = pick p l ++ pick p' l.
  Proof. apply map_app. Qed.
  Lemma asg_of (es ix : list nat) : NoDup es -> length ix = length es -> exists a : nat -> nat, map a es = ix.
  Proof. intros HN HL. exists (binds Nat.eq_dec (fun _ => 0) es ix). apply map_binds; assumption. Qed.

  (** the two edge lists of a new node for [t], whatever the reference set is *)
  Lemma axes_ok s t out_axes in_axes (ref : nid -> list nid) : wf s -> Permutation (out_axes ++ in_axes) (seq 0 (rank t)) ->
    (forall n m, In m (ref n) -> m = n) -> (rank t = 0 -> forall n, ref n <> []) ->
    exists s' n es, new_node t None s = (s', Some n) /\ mmap (edge_of n) out_axes s' = (s', Some (pick out_axes es)) /\ mmap (edge_of n) in_axes s' = (s', Some (pick in_axes es)) /\
      let C := Qu (pick out_axes es) (pick in_axes es) (ref n) [] [] in
      construct iter C s' = (s', Some C) /\ made s s' C [n] /\ copyable s' C /\ rows s' C = pick out_axes (shape t) /\ cols s' C = pick in_axes (shape t) /\
      (forall ix, length ix = rank t -> entry s' [n] C (pick out_axes ix) (pick in_axes ix) [] = elt t ix).
  Proof.
    intros W P Hr Hne. destruct (leaf_ok t W) as (s1 & n & es & H & L). exists s1, n, es. split; [exact H|].
    assert (forall k, In k (out_axes ++ in_axes) -> k < rank t) as Hk by (intros k Hk; apply (Permutation_in _ P), in_seq in Hk; lia).
    assert (forall k, In k out_axes -> k < rank t) as Ho by (intros k Q; apply Hk, in_or_app; auto). assert (forall k, In k in_axes -> k < rank t) as Hi by (intros k Q; apply Hk, in_or_app; auto).
    split; [apply (leaf_edges_of L Ho)|]. split; [apply (leaf_edges_of L Hi)|]. cbn zeta. set (C := Qu _ _ _ _ _).
    assert (oper s1 C [n]) as OC.
    { apply (leaf_oper L); [| |intros E1 E2|intros m []].
      - unfold q_edges, C. cbn. rewrite app_nil_r, <- pick_app. apply pick_perm. rewrite (lf_len L). exact P.
      - intros m Hm. apply (Hr n m Hm).
      - cbn [C q_out q_in q_ref] in E1, E2. rewrite <- pick_app in E2. unfold pick in E2. apply map_eq_nil in E2. rewrite E2 in P. apply Permutation_nil in P.
        apply (Hne) with (n := n); [|exact E1]. rewrite <- (seq_length (rank t) 0), P. reflexivity. }
    split; [apply (construct_ok iter_perm (lf_wf L) OC)|]. split; [apply (leaf_made L OC)|]. split; [apply (leaf_copyable L); intros m []|].
    assert (forall ax, (forall k, In k ax -> k < rank t) -> map (edim s1) (pick ax es) = pick ax (shape t)) as Hd.
    { intros ax Hax. unfold pick. rewrite map_map. apply map_ext_in. intros k Q. apply (leaf_dim L), Hax, Q. }
    split; [apply Hd, Ho|]. split; [apply Hd, Hi|].
    intros ix HL. destruct (@asg_of es ix (lf_nodup L)) as (a & Ha); [rewrite (lf_len L); exact HL|].
    rewrite (entry_asg (lf_wf L) OC (a := a)); [rewrite (leaf_value L), Ha; reflexivity| | |reflexivity]; cbn [C q_out q_in]; rewrite <- Ha; symmetry; apply pick_map; rewrite (lf_len L); assumption.
  Qed.

  Theorem from_tensor_ok s t out_axes in_axes : wf s -> Permutation (out_axes ++ in_axes) (seq 0 (rank t)) ->
    exists s' n C, from_tensor iter t out_axes in_axes s = (s', Some C) /\ made s s' C [n] /\ copyable s' C /\ q_ign C = [] /\
      rows s' C = pick out_axes (shape t) /\ cols s' C = pick in_axes (shape t) /\
      (forall ix, length ix = rank t -> entry s' [n] C (pick out_axes ix) (pick in_axes ix) [] = elt t ix).
  Proof.
    intros W P. destruct (@axes_ok s t out_axes in_axes (fun n => [n]) W P) as (s' & n & es & H1 & H2 & H3 & H4 & H5); [intros n m [->|[]]; reflexivity|discriminate|].
    exists s', n, (Qu (pick out_axes es) (pick in_axes es) [n] [] []). split; [|destruct H5 as (? & ? & ?); auto 10].
    unfold from_tensor, bind. rewrite H1, H2, H3. exact H4.
  Qed.
  Theorem vector_from_tensor_ok s t axes : wf s -> rank t <> 0 -> Permutation axes (seq 0 (rank t)) ->
    exists s' n C, vector_from_tensor iter t axes s = (s', Some C) /\ made s s' C [n] /\ copyable s' C /\ q_ign C = [] /\ q_in C = [] /\
      rows s' C = pick axes (shape t) /\ (forall ix, length ix = rank t -> entry s' [n] C (pick axes ix) [] [] = elt t ix).
  Proof.
    intros W Hz P. destruct (@axes_ok s t axes [] (fun n => []) W) as (s' & n & es & H1 & H2 & H3 & H4 & H5); [rewrite app_nil_r; exact P|intros n m []|intros E; congruence|].
    exists s', n, (Qu (pick axes es) [] [] [] []). split; [|destruct H5 as (? & ? & ? & ? & ?); auto 10].
    unfold vector_from_tensor, bind. rewrite H1, H2. exact H4.
  Qed.
  Theorem adjoint_from_tensor_ok s t axes : wf s -> rank t <> 0 -> Permutation axes (seq 0 (rank t)) ->
    exists s' n C, adjoint_from_tensor iter t axes s = (s', Some C) /\ made s s' C [n] /\ copyable s' C /\ q_ign C = [] /\ q_out C = [] /\
      cols s' C = pick axes (shape t) /\ (forall ix, length ix = rank t -> entry s' [n] C [] (pick axes ix) [] = elt t ix).
  Proof.
    intros W Hz P. destruct (@axes_ok s t [] axes (fun n => []) W) as (s' & n & es & H1 & H2 & H3 & H4 & H5); [exact P|intros n m []|intros E; congruence|].
    exists s', n, (Qu [] (pick axes es) [] [] []). split; [|destruct H5 as (? & ? & ? & ? & ?); auto 10].
    unfold adjoint_from_tensor, bind. rewrite H1, H3. exact H4.
  Qed.

  (** ** scalar multiples *)
  Lemma is_scalar_spec q : is_scalar q = true <-> q_out q = [] /\ q_in q = [].
  Proof. unfold is_scalar. destruct (q_out q), (q_in q); cbn; split; intros H; try discriminate; try tauto; destruct H; discriminate. Qed.
  Theorem mul_ok s A B nA nB : wf s -> oper s A nA -> oper s B nB -> copyable s A -> copyable s B -> q_out B = [] -> q_in B = [] ->
    exists s' C nC, mul iter A B s = (s', Some C) /\ made s s' C nC /\ copyable s' C /\ rows s' C = rows s A /\ cols s' C = cols s A /\
      length (q_ign C) = length (q_ign A) + length (q_ign B) /\
      (forall i j g h, length i = length (q_out A) -> length j = length (q_in A) -> length g = length (q_ign A) -> length h = length (q_ign B) ->
        entry s' nC C i j (g ++ h) = entry s nA A i j g *! entry s nB B [] [] h).
  Proof.
    intros W OA OB KA KB Eo Ei. destruct (tensor_product_ok iter_perm W OA OB KA KB) as (s' & C & nC & H & Md & K & R1 & C1 & G & V). exists s', C, nC.
    split. { unfold mul, bind. rewrite (proj2 (is_scalar_spec B) (Logic.conj Eo Ei)), orb_true_r. cbn [guard ret]. exact H. }
    split; [exact Md|]. split; [exact K|]. split; [rewrite R1; unfold rows; rewrite Eo; apply app_nil_r|]. split; [rewrite C1; unfold cols; rewrite Ei; apply app_nil_r|]. split; [exact G|].
    intros i j g h Hi Hj Hg Hh. rewrite <- (V i [] j [] g h) by (rewrite ?Eo, ?Ei; auto). rewrite !app_nil_r. reflexivity.
  Qed.
  Theorem mul_left_ok s A B nA nB : wf s -> oper s A nA -> oper s B nB -> copyable s A -> copyable s B -> q_out A = [] -> q_in A = [] ->
    exists s' C nC, mul iter A B s = (s', Some C) /\ made s s' C nC /\ copyable s' C /\ rows s' C = rows s B /\ cols s' C = cols s B /\
      length (q_ign C) = length (q_ign A) + length (q_ign B) /\
      (forall i j g h, length i = length (q_out B) -> length j = length (q_in B) -> length g = length (q_ign A) -> length h = length (q_ign B) ->
        entry s' nC C i j (g ++ h) = entry s nA A [] [] g *! entry s nB B i j h).
  Proof.
    intros W OA OB KA KB Eo Ei. destruct (tensor_product_ok iter_perm W OA OB KA KB) as (s' & C & nC & H & Md & K & R1 & C1 & G & V). exists s', C, nC.
    split. { unfold mul, bind. rewrite (proj2 (is_scalar_spec A) (Logic.conj Eo Ei)). cbn [orb guard ret]. exact H. }
    split; [exact Md|]. split; [exact K|]. split; [rewrite R1; unfold rows; rewrite Eo; reflexivity|]. split; [rewrite C1; unfold cols; rewrite Ei; reflexivity|]. split; [exact G|].
    intros i j g h Hi Hj Hg Hh. rewrite <- (V [] i [] j g h) by (rewrite ?Eo, ?Ei; auto). reflexivity.
  Qed.
  Theorem mul_reject s A B : q_out A ++ q_in A <> [] -> q_out B ++ q_in B <> [] -> mul iter A B s = (s, None).
  Proof.
    intros HA HB. unfold mul, bind. replace (is_scalar A || is_scalar B) with false; [reflexivity|].
    unfold is_scalar. destruct (q_out A), (q_in A), (q_out B), (q_in B); cbn in *; congruence.
  Qed.
  Theorem mul_tensor_ok s A nA t : wf s -> oper s A nA -> copyable s A -> shape t = [] ->
    exists s' C nC, mul_tensor iter A t s = (s', Some C) /\ made s s' C nC /\ copyable s' C /\ rows s' C = rows s A /\ cols s' C = cols s A /\ length (q_ign C) = length (q_ign A) /\
      (forall i j g, length i = length (q_out A) -> length j = length (q_in A) -> length g = length (q_ign A) ->
        entry s' nC C i j g = entry s nA A i j g *! elt t []).
  Proof.
    intros W OA KA Et. destruct (leaf_ok t W) as (s1 & n & es & H & L). assert (es = []) as -> by (apply length_zero_iff_nil; rewrite (lf_len L); unfold rank; rewrite Et; reflexivity).
    set (B := Qu [] [] [n] [] []). assert (oper s1 B [n]) as OB by (apply (leaf_oper L); [reflexivity|intros m [->|[]]; reflexivity|discriminate|intros m []]).
    pose proof (leaf_copyable L (q := B) (fun m (F : In m []) => match F with end)) as KB.
    destruct (made_rows W (lf_wf L) (lf_kept L) OA) as (E1 & E2 & _).
    destruct (mul_ok (lf_wf L) (kept_oper (lf_kept L) OA) OB (kept_copyable (lf_kept L) OA KA) KB eq_refl eq_refl) as (s' & C & nC & H1 & Md & K & R1 & C1 & G & V).
    exists s', C, nC. split.
    { unfold mul_tensor, bind. destruct (q_nodes_ok iter_perm W OA) as (l & Hq & _). rewrite Hq, H, Et. cbn [guard ret]. fold B. rewrite (construct_ok iter_perm (lf_wf L) OB). exact H1. }
    split; [apply (made_trans W (lf_kept L) Md)|]. split; [exact K|]. split; [congruence|]. split; [congruence|]. split; [cbn in G; lia|].
    intros i j g Hi Hj Hg. rewrite <- (app_nil_r g), (V i j g []) by (assumption || reflexivity). rewrite app_nil_r. rewrite (kept_entry i j g W (lf_wf L) (lf_kept L) OA). f_equal.
    rewrite (entry_asg (lf_wf L) OB (a := fun _ => 0)) by reflexivity. apply (leaf_value L).
  Qed.
  Theorem mul_tensor_reject s A nA t : wf s -> oper s A nA -> shape t <> [] -> exists s', mul_tensor iter A t s = (s', None) /\ kept s s'.
  Proof.
    intros W OA Et. destruct (leaf_ok t W) as (s1 & n & es & H & L). exists s1. split; [|apply (lf_kept L)].
    unfold mul_tensor, bind. destruct (q_nodes_ok iter_perm W OA) as (l & Hq & _). rewrite Hq, H. destruct (shape t); [congruence|reflexivity].
  Qed.

  (** ** norm, projector, reduced density *)
  Theorem norm_ok s q ns : wf s -> oper s q ns -> copyable s q ->
    exists s' C nC, norm iter q s = (s', Some C) /\ made s s' C nC /\ q_out C = [] /\ q_in C = [] /\ length (q_ign C) = length (q_ign q) + length (q_ign q) /\
      (forall g h, length g = length (q_ign q) -> length h = length (q_ign q) ->
        entry s' nC C [] [] (g ++ h) = lsum (idxs (cols s q)) (fun j => lsum (idxs (rows s q)) (fun i => cj (entry s ns q i j g) *! entry s ns q i j h))).
  Proof.
    intros W O K. destruct (adjoint_ok iter_perm W O K) as (s1 & a & nA & H1 & M1 & K1 & R1 & C1 & G1 & V1).
    pose proof (kept_oper (md_kept M1) O) as O'. pose proof (kept_copyable (md_kept M1) O K) as K'. destruct (made_rows W (md_wf M1) (md_kept M1) O) as (Rq & Cq & _).
    destruct (matmul_ok iter_perm (md_wf M1) (md_oper M1) O' K1 K') as (s2 & p & nP & H2 & M2 & K2 & R2 & C2 & G2 & V2); [congruence|].
    destruct (trace_ok iter_perm (md_wf M2) (md_oper M2) K2) as (s3 & C & nC & H3 & M3 & E1 & E2 & G3 & _ & V3); [congruence|].
    assert (length (q_ign a) = length (q_ign q)) as La by (rewrite <- (map_length (edim s1) (q_ign a)), G1, map_length; reflexivity).
    assert (length (q_out a) = length (q_in q)) as Lo by (rewrite <- (map_length (edim s1) (q_out a)); change (length (rows s1 a) = length (q_in q)); rewrite R1; apply map_length).
    exists s3, C, nC. split; [unfold norm, bind; rewrite H1, H2; exact H3|].
    split; [apply (made_trans W (md_kept M1) (made_trans (md_wf M1) (md_kept M2) M3))|]. split; [exact E1|]. split; [exact E2|]. split; [congruence|].
    intros g h Hg Hh. rewrite V3 by (rewrite G2, app_length; congruence). rewrite R2, R1. apply lsum_ext. intros j Hj. apply In_idxs, valid_length in Hj. unfold cols in Hj. rewrite map_length in Hj.
    rewrite V2 by congruence. rewrite C1. apply lsum_ext. intros i Hi. apply In_idxs, valid_length in Hi. unfold rows in Hi. rewrite map_length in Hi.
    rewrite (V1 i j g Hi Hj Hg). rewrite (kept_entry i j h W (md_wf M1) (md_kept M1) O). reflexivity.
  Qed.
  Theorem projector_ok s q ns : wf s -> oper s q ns -> copyable s q ->
    exists s' C nC, projector iter q s = (s', Some C) /\ made s s' C nC /\ copyable s' C /\ rows s' C = rows s q /\ cols s' C = rows s q /\ length (q_ign C) = length (q_ign q) + length (q_ign q) /\
      (forall i k g h, length i = length (q_out q) -> length k = length (q_out q) -> length g = length (q_ign q) -> length h = length (q_ign q) ->
        entry s' nC C i k (g ++ h) = lsum (idxs (cols s q)) (fun j => entry s ns q i j g *! cj (entry s ns q k j h))).
  Proof.
    intros W O K. destruct (adjoint_ok iter_perm W O K) as (s1 & a & nA & H1 & M1 & K1 & R1 & C1 & G1 & V1).
    pose proof (kept_oper (md_kept M1) O) as O'. pose proof (kept_copyable (md_kept M1) O K) as K'. destruct (made_rows W (md_wf M1) (md_kept M1) O) as (Rq & Cq & _).
    destruct (matmul_ok iter_perm (md_wf M1) O' (md_oper M1) K' K1) as (s2 & p & nP & H2 & M2 & K2 & R2 & C2 & G2 & V2); [congruence|].
    assert (length (q_ign a) = length (q_ign q)) as La by (rewrite <- (map_length (edim s1) (q_ign a)), G1, map_length; reflexivity).
    assert (length (q_in a) = length (q_out q)) as Lo by (rewrite <- (map_length (edim s1) (q_in a)); change (length (cols s1 a) = length (q_out q)); rewrite C1; apply map_length).
    exists s2, p, nP. split; [unfold projector, bind; rewrite H1; exact H2|].
    split; [apply (made_trans W (md_kept M1) M2)|]. split; [exact K2|]. split; [congruence|]. split; [congruence|]. split; [congruence|].
    intros i k g h Hi Hk Hg Hh. rewrite V2 by congruence. rewrite Cq. apply lsum_ext. intros j Hj. apply In_idxs, valid_length in Hj. unfold cols in Hj. rewrite map_length in Hj.
    rewrite (V1 k j h Hk Hj Hh). rewrite (kept_entry i j g W (md_wf M1) (md_kept M1) O). reflexivity.
  Qed.
  Theorem reduced_density_ok s q ns ts : wf s -> oper s q ns -> copyable s q -> NoDup ts -> (forall k, In k ts -> k < length (q_out q)) ->
    exists s' C nC, reduced_density iter q ts s = (s', Some C) /\ made s s' C nC /\ rows s' C = drop_at ts (rows s q) /\ cols s' C = drop_at ts (rows s q) /\
      (forall I J g h, length I = length (q_out q) -> length J = length (q_out q) -> length g = length (q_ign q) -> length h = length (q_ign q) ->
        entry s' nC C (drop_at ts I) (drop_at ts J) (g ++ h) =
        lsum (idxs (pick ts (rows s q))) (fun vs => lsum (idxs (cols s q)) (fun j => entry s ns q (put_at ts vs I) j g *! cj (entry s ns q (put_at ts vs J) j h)))).
  Proof.
    intros W O K HN Hr. destruct (projector_ok W O K) as (s1 & p & nP & H1 & M1 & K1 & R1 & C1 & G1 & V1).
    assert (length (q_out p) = length (q_out q)) as Lo by (rewrite <- (map_length (edim s1) (q_out p)); change (length (rows s1 p) = length (q_out q)); rewrite R1; apply map_length).
    assert (length (q_in p) = length (q_out q)) as Li by (rewrite <- (map_length (edim s1) (q_in p)); change (length (cols s1 p) = length (q_out q)); rewrite C1; apply map_length).
    destruct (partial_trace_ok (ts := ts) iter_perm (md_wf M1) (md_oper M1) K1 HN) as (s2 & C & nC & H2 & M2 & _ & R2 & C2 & _ & V2); [intros k Hk; pose proof (Hr k Hk); lia|congruence|].
    exists s2, C, nC. split; [unfold reduced_density, bind; rewrite H1; exact H2|]. split; [apply (made_trans W (md_kept M1) M2)|]. split; [congruence|]. split; [congruence|].
    intros I J g h HI HJ Hg Hh. rewrite V2 by (rewrite ?app_length; congruence). rewrite R1. apply lsum_ext. intros vs _. apply V1; rewrite ?put_length; assumption.
  Qed.
End QM.
