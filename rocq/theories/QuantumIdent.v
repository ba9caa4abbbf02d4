(** * QuantumIdent: identity operators *)
From Verif Require Import Prelude Algebra Tensor TensorFacts Einsum EinsumFacts NetworkFacts Graph GraphBase GraphConnect GraphContract GraphOps GraphValue GraphLaws GraphJoin GraphTotal GraphQuery GraphQueryFacts GraphCopy GraphCopyFacts GraphDensity CopyTensor CopyTensorSpec CopyTensorBucket CopyTensorMain Quantum QuantumSpec QuantumFacts QuantumNodes QuantumCopy QuantumJoin QuantumUnion QuantumOps QuantumTrace QuantumMake.
Set Implicit Arguments.
Unset Strict Implicit.

Section QI.
  Context {R : cjr}.
  Notation st := (@st R).
  Variable iter : list nat -> list nat.
  Hypothesis iter_perm : forall l, Permutation (iter l) l.
  Implicit Types (s : st) (q A B : quop) (e f : eid) (n m : nid) (ts : list nat) (t : tensor R).
  Add Ring Rqi : (rsr R).

  Lemma edge_of_slot s n k e : slot s (n, k) = Some e -> edge_of n k s = (s, Some e).
  Proof. unfold slot, edge_of, bind, get_node. cbn [fst snd]. destruct (s_nodes s n); [|discriminate]. intros ->. reflexivity. Qed.
  Lemma edges_of_slots s k ns es : Forall2 (fun n e => slot s (n, k) = Some e) ns es -> mmap (fun n => edge_of n k) ns s = (s, Some es).
  Proof.
    induction 1 as [|n e ns es H _ IH]; [reflexivity|]. cbn [mmap]. unfold bind at 1. rewrite (edge_of_slot H). unfold bind. rewrite IH. reflexivity.
  Qed.
  Lemma oper_unref s q ns : oper s q ns -> (forall n, In n ns -> exists e, In e (q_out q ++ q_in q) /\ on s n e) -> oper s (Qu (q_out q) (q_in q) [] (q_ign q) (q_cps q)) ns.
  Proof.
    intros O H. split; try apply O. intros m. cbn [q_out q_in q_ref]. split.
    - intros Hm. exists m. split; [left; apply H, Hm|constructor].
    - intros (n & [Hn|[]] & K). apply (op_nodes O). exists n. auto.
  Qed.

  Record idents s s' (space : list nat) (ns : list nid) (out inn : list eid) : Prop := {
    id_wf : wf s';
    id_kept : kept s s';
    id_fresh : fresh_nodes s ns;
    id_out : Forall2 (fun n e => slot s' (n, 0) = Some e) ns out;
    id_in : Forall2 (fun n e => slot s' (n, 1) = Some e) ns inn;
    id_oper : space <> [] -> oper s' (Qu out inn ns [] ns) ns;
    id_dangling : forall n e, In n ns -> on s' n e -> exists k, s_edges s' e = Some (Edge n k None false);
    id_rows : map (edim s') out = space;
    id_cols : map (edim s') inn = space;
    id_value : forall a, valid (map a out) space -> valid (map a inn) space -> netval s' ns a = if list_eq_dec Nat.eq_dec (map a out) (map a inn) then r1 else r0
  }.


  Lemma Forall2_length X Y (P : X -> Y -> Prop) l l' : Forall2 P l l' -> length l = length l'.
  Proof. induction 1; cbn; congruence. Qed.
  Lemma idents_ok space : forall s, wf s -> exists s' ns out inn, mmap (fun d => new_copy_node 2 d None) space s = (s', Some ns) /\ idents s s' space ns out inn.
  Proof.
    induction space as [|d space IH]; intros s W.
    - exists s, [], [], []. split; [reflexivity|]. split; [exact W|apply kept_refl|intros n []|constructor|constructor|intros F; destruct (F eq_refl)|intros n e []|reflexivity|reflexivity|].
      intros a _ _. reflexivity.
    - destruct (leaf_ok (copy_tensor (R := R) 2 d) W) as (s1 & n & es & H1 & L). destruct (IH s1 (lf_wf L)) as (s' & ns & out & inn & H2 & I).
      pose proof (lf_len L) as Les. destruct es as [|e [|f [|? ?]]]; try discriminate. pose proof (id_kept I) as K.
      assert (is_node s1 n) as Hn1 by (unfold is_node; rewrite (lf_node L); discriminate).
      assert (~ In n ns) as Hnn by (intros Q; apply (id_fresh I Q Hn1)).
      assert (oper s1 (Qu [e] [f] [n] [] [n]) [n]) as O1.
      { apply (leaf_oper L); [reflexivity|intros m [->|[]]; reflexivity|discriminate|intros m [->|[]]; reflexivity]. }
      pose proof (kept_oper K O1) as O1'.
      assert (slot s1 (n, 0) = Some e) as S0 by (apply (lf_slot L (k := 0)); cbn; lia). assert (slot s1 (n, 1) = Some f) as S1 by (apply (lf_slot L (k := 1)); cbn; lia).
      assert (slot s' (n, 0) = Some e) as S0' by (rewrite (kept_slot K) by exact Hn1; exact S0). assert (slot s' (n, 1) = Some f) as S1' by (rewrite (kept_slot K) by exact Hn1; exact S1).
      exists s', (n :: ns), (e :: out), (f :: inn). split; [cbn [mmap]; unfold bind at 1; unfold new_copy_node at 1; rewrite H1; unfold bind; rewrite H2; reflexivity|].
      split.
      + apply (id_wf I).
      + apply (kept_trans (lf_kept L) K).
      + intros m [<-|Hm]; [apply (lf_fresh L)|]. intros Q. apply (id_fresh I Hm), (kept_node (lf_kept L) Q).
      + constructor; [exact S0'|apply (id_out I)].
      + constructor; [exact S1'|apply (id_in I)].
      + intros _. destruct space as [|d' space].
        * pose proof (id_rows I) as E1. pose proof (id_cols I) as E2. pose proof (Forall2_length (id_out I)) as E3. apply map_eq_nil in E1, E2. subst out inn. destruct ns; [|discriminate]. exact O1'.
        * assert (oper s' (Qu out inn ns [] ns) ns) as O2 by (apply (id_oper I); discriminate).
          apply (@beside_oper _ s' (Qu [e] [f] [n] [] [n]) (Qu out inn ns [] ns) [n] ns (n :: ns) O1' O2); [intros m [<-|[]]; exact Hnn|reflexivity].
      + intros m x [<-|Hm] Ho; [|apply (id_dangling I Hm Ho)]. apply (kept_on x K Hn1) in Ho. apply (leaf_on L) in Ho as Hx. rewrite (k_edges K Ho). apply (lf_dangling L Hx).
      + cbn [map]. rewrite (id_rows I). f_equal. rewrite (kept_edim (lf_wf L) (id_wf I) K (ex_intro _ 0 S0)). apply (leaf_dim L (k := 0)). cbn. lia.
      + cbn [map]. rewrite (id_cols I). f_equal. rewrite (kept_edim (lf_wf L) (id_wf I) K (ex_intro _ 1 S1)). apply (leaf_dim L (k := 1)). cbn. lia.
      + intros a V1 V2. cbn [map] in *. inversion V1 as [|x dx l1 l2 X1 X2]; subst. inversion V2 as [|y dy l3 l4 Y1 Y2]; subst.
        change (n :: ns) with ([n] ++ ns). rewrite (beside_value O1') by (intros m [<-|[]]; exact Hnn).
        rewrite (kept_netval a (lf_wf L) (id_wf I) K) by (intros m [<-|[]]; exact Hn1). rewrite (leaf_value L). rewrite (id_value I X2 Y2). cbn [map].
        rewrite (proj2 (copy_tensor_delta (R := R) 2 d)) by (cbn; repeat constructor; assumption). cbn [alleq forallb].
        destruct (Nat.eqb_spec (a e) (a f)) as [E|E]; cbn [andb].
        * rewrite E. destruct (list_eq_dec _ (map a out) (map a inn)) as [E'|E']; destruct (list_eq_dec _ (_ :: _) (_ :: _)) as [E2|E2]; try ring; exfalso; [apply E2; congruence|injection E2 as E2; contradiction].
        * destruct (list_eq_dec _ (_ :: _) (_ :: _)) as [E2|E2]; [injection E2 as E2 E3; contradiction|]. destruct (list_eq_dec _ _ _); ring.
  Qed.

  Theorem identity_ok s space : wf s -> space <> [] ->
    exists s' C nC, identity iter space s = (s', Some C) /\ made s s' C nC /\ copyable s' C /\ q_ign C = [] /\ rows s' C = space /\ cols s' C = space /\
      forward s' C (seq 0 (length space)) /\
      (forall i j, valid i space -> valid j space -> entry s' nC C i j [] = if list_eq_dec Nat.eq_dec i j then r1 else r0).
  Proof.
    intros W Hne. destruct (idents_ok space W) as (s' & ns & out & inn & H & I). pose proof (id_oper I Hne) as O.
    assert (oper s' (Qu out inn [] [] ns) ns) as O'.
    { apply (oper_unref O). intros n Hn. cbn. destruct (In_nth _ _ 0 Hn) as (k & Hk & <-). exists (nth k out 0).
      assert (slot s' (nth k ns 0, 0) = Some (nth k out 0)) as Q.
      { pose proof (id_out I) as F. clear - F Hk. revert k Hk. induction F as [|x y l l' Hx _ IH]; intros [|k] Hk; cbn in *; try lia; [exact Hx|apply IH; lia]. }
      split; [apply in_or_app; left; apply nth_In; rewrite <- (Forall2_length (id_out I)); exact Hk|exists 0; exact Q]. }
    exists s', (Qu out inn [] [] ns), ns. split.
    { unfold identity, bind. rewrite H, (edges_of_slots (id_out I)), (edges_of_slots (id_in I)). apply (construct_ok iter_perm (id_wf I) O'). }
    split; [split; [apply (id_wf I)|apply (id_kept I)|apply (id_fresh I)|exact O']|]. split.
    { intros n e ed a2 Hn Ho He _ H2. destruct (id_dangling I Hn Ho) as (k & Q). rewrite He in Q. injection Q as ->. discriminate. }
    split; [reflexivity|]. split; [apply (id_rows I)|]. split; [apply (id_cols I)|]. split.
    { intros k Hk n i j _ Hi Hj. apply in_seq in Hk. cbn [q_out q_in] in Hi, Hj. rewrite <- (id_rows I), map_length in Hk. cbn in Hk. destruct Hk as [_ Hk].
      assert (forall (z : nat) l, Forall2 (fun n e => slot s' (n, z) = Some e) ns l -> k < length l -> slot s' (nth k ns 0, z) = Some (nth k l 0)) as Q.
      { clear. intros z l F. revert k. induction F as [|x y l0 l' Hx _ IH]; intros [|k] Hk; cbn in *; try lia; [exact Hx|apply IH; lia]. }
      assert (forall e p p', In e (q_edges (Qu out inn [] [] ns)) -> slot s' p = Some e -> slot s' p' = Some e -> p = p') as Hu.
      { intros e p p' Hx X Y. apply (op_open O') in Hx. destruct Hx as (m & _ & k' & _ & Z). rewrite (Z _ X), (Z _ Y). reflexivity. }
      assert (length inn = length out) as HL by (rewrite <- (Forall2_length (id_out I)), (Forall2_length (id_in I)); reflexivity).
      pose proof (Hu _ _ _ (in_out (q := Qu out inn [] [] ns) (nth_In out 0 Hk)) Hi (Q 0 out (id_out I) Hk)) as E1.
      assert (k < length inn) as Hk' by lia. pose proof (Hu _ _ _ (in_in (q := Qu out inn [] [] ns) (nth_In inn 0 Hk')) Hj (Q 1 inn (id_in I) Hk')) as E2.
      injection E1 as _ ->. injection E2 as _ ->. lia. }
    intros i j Vi Vj. assert (length out = length space) as Lo by (rewrite <- (map_length (edim s') out), (id_rows I); reflexivity). assert (length inn = length space) as Li by (rewrite <- (map_length (edim s') inn), (id_cols I); reflexivity).
    destruct (@entry_exists _ s' _ ns i j [] (id_wf I) O') as (a & A1 & A2 & _ & ->); [cbn; rewrite (valid_length Vi); congruence|cbn; rewrite (valid_length Vj); congruence|reflexivity|].
    cbn [q_out q_in] in A1, A2. subst i j. apply (id_value I Vi Vj).
  Qed.
  Theorem identity_empty s : identity iter [] s = (s, None).
  Proof. reflexivity. Qed.
End QI.
