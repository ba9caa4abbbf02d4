(** * SymLinalgBond: factors of a symmetric matrix with a new bond *)
From Coq Require Import Permutation List Lia Arith.
From Verif Require Import Prelude Algebra Tensor TensorFacts Res Charge ChargeFacts BlockSparse BlockSpec BstSpec ListFacts BlockFacts BlockReduce BlockMaps BlockTr BlockPart BstFacts BstConv BstDot BstTensordot SymSvd SymSvdBond SymSvdTensorFacts SymLinalg SymLinalgSpec SymLinalgGrade SymLinalgMat.
Import ListNotations.
Set Implicit Arguments.
Unset Strict Implicit.

Definition pair_dec : forall x y : nat * nat, {x = y} + {x <> y}.
Proof. decide equality; apply Nat.eq_dec. Defined.
Lemma block_labels_bonds ks : block_labels ks = map fst (bonds ks).
Proof. rewrite map_bonds. unfold block_labels. f_equal. apply map_ext. intros n. symmetry. apply (map_const_repeat n). Qed.

Section BondG.
  Context {G : chg}.
  Variables (qs : list G) (k : G -> nat).
  Hypothesis ND : NoDup qs.
  Notation ks := (map k qs).
  (** the positions of the new bond *)
  Definition bondG : grading (G := G) :=
    Grad (length (bonds (map k qs))) (fun b => nth (fst (nth b (bonds (map k qs)) (0, 0))) qs qid) (fun b => snd (nth b (bonds (map k qs)) (0, 0)))
      (fun q => if in_dec qdec q qs then k q else 0) (fun q a => index_of pair_dec (index_of qdec q qs, a) (bonds (map k qs))).
  Lemma nth_k n : n < length qs -> nth n ks 0 = k (nth n qs qid).
  Proof. intros H. apply nth_map_lt. exact H. Qed.
  Lemma bondG_ok : gok bondG.
  Proof.
    split; cbn [bondG gn gch gloc gsz gemb].
    - intros b Hb. assert (In (nth b (bonds ks) (0, 0)) (bonds ks)) as I by (apply nth_In, Hb). pose proof I as I2. apply In_bonds in I2 as [I1 I2]. rewrite map_length in I1. rewrite nth_k in I2 by exact I1.
      set (x := nth b (bonds ks) (0, 0)) in *. destruct (in_dec qdec (nth (fst x) qs qid) qs) as [_|N]; [|exfalso; apply N, nth_In, I1].
      split; [exact I2|]. rewrite index_of_nth by assumption. rewrite <- surjective_pairing. apply index_of_nth; [apply NoDup_bonds | exact Hb].
    - intros q a. destruct (in_dec qdec q qs) as [I|]; [|lia]. intros Ha. pose proof (index_of_lt qdec q qs I) as Hi.
      assert (In (index_of qdec q qs, a) (bonds ks)) as Ib.
      { apply In_bonds. cbn [fst snd]. rewrite map_length. split; [exact Hi|]. rewrite nth_k by exact Hi. rewrite nth_index_of by exact I. exact Ha. }
      split; [apply index_of_lt, Ib|]. rewrite nth_index_of by exact Ib. cbn [fst snd]. split; [apply nth_index_of, I | reflexivity].
  Qed.
  Lemma bondG_in q : In q qs -> gsz bondG q = k q.
  Proof. intros H. cbn. destruct (in_dec qdec q qs); [reflexivity | contradiction]. Qed.
  Lemma bondG_notin q : ~ In q qs -> gsz bondG q = 0.
  Proof. intros H. cbn. destruct (in_dec qdec q qs); [contradiction | reflexivity]. Qed.

  Context {K : csr}.
  Variable h : G -> mat K.
  Definition hx (x : nat * nat) : mat K := h (nth (fst x) qs qid).
  Lemma cols_data (f : bool) (L : list (leg G)) : (forall q, In q qs -> m_cols (h q) = k q) -> (forall q, In q qs -> m_rows (h q) = length (sector L (if f then q else qinv q))) ->
    concat (map ravel_cols (map h qs)) = bond_data qs ks f L (fun x i => m_at (hx x) i (snd x)).
  Proof.
    intros Hc Hr. unfold bond_data. rewrite flat_map_bonds, map_length, map_map. rewrite (list_by_index qs qid) at 1. rewrite map_map. f_equal. apply map_ext_in. intros n Hn. apply in_seq in Hn.
    assert (In (nth n qs qid) qs) as I by (apply nth_In; lia). unfold ravel_cols. rewrite Hc by exact I. rewrite nth_k by lia. apply flat_map_ext_in. intros j _. unfold hx. cbn [fst snd]. rewrite Hr by exact I.
    unfold partner. destruct f; reflexivity.
  Qed.
  Lemma rows_data (f : bool) (L : list (leg G)) : (forall q, In q qs -> m_rows (h q) = k q) -> (forall q, In q qs -> m_cols (h q) = length (sector L (if f then q else qinv q))) ->
    concat (map ravel_rows (map h qs)) = bond_data qs ks f L (fun x i => m_at (hx x) (snd x) i).
  Proof.
    intros Hc Hr. unfold bond_data. rewrite flat_map_bonds, map_length, map_map. rewrite (list_by_index qs qid) at 1. rewrite map_map. f_equal. apply map_ext_in. intros n Hn. apply in_seq in Hn.
    assert (In (nth n qs qid) qs) as I by (apply nth_In; lia). unfold ravel_rows. rewrite Hc by exact I. rewrite nth_k by lia. apply flat_map_ext_in. intros j _. unfold hx. cbn [fst snd]. rewrite Hr by exact I.
    unfold partner. destruct f; reflexivity.
  Qed.
End BondG.

Section Factor.
  Context {G : chg} {K : csr}.
  Variable m : bst G K.
  Variables o0 o1 : list nat.
  Hypothesis W : wf_bst m.
  Hypothesis Eo : bord m = [o0; o1].
  Notation L := (axis_legs m 0).
  Notation C := (axis_legs m 1).
  Variable B : blocks (G := G).
  Hypothesis HB : blocks_ok (elegs m) (o0 ++ o1) (length o0) B.
  Notation qs := (rep (bqs B)).
  Variable k : G -> nat.
  Notation ks := (map k qs).

  Lemma qs_nodup : NoDup qs.
  Proof. apply HB. Qed.
  Lemma bond_charges : exists q, bgetitem (bqs B) (block_labels ks) = Ok q /\ bc_ok q /\ rep q = map (fun x => nth (fst x) qs qid) (bonds ks).
  Proof.
    destruct (@bgetitem_rep G (bqs B) (block_labels ks) (proj1 HB)) as (q & E & Hq & Rq).
    - intros n Hn. rewrite block_labels_bonds in Hn. apply in_map_iff in Hn as (x & <- & Hx). apply In_bonds in Hx as [Hx _]. rewrite map_length in Hx. exact Hx.
    - exists q. rewrite block_labels_bonds in Rq. unfold gather in Rq. rewrite map_map in Rq. auto.
  Qed.
  Variable q : bc G.
  Hypothesis Hq : bc_ok q.
  Hypothesis Rq : rep q = map (fun x => nth (fst x) qs qid) (bonds ks).

  Definition part_leg (f : bool) : leg G := (rep q, f).
  Lemma side_legs x o : o = nth x (bord m) [] -> x < 2 ->
    legs (gather (Raw []) (bcs m) o) (gather false (bfs m) o) = axis_legs m x /\ length (gather (Raw []) (bcs m) o) = length (gather false (bfs m) o) /\
    all_ok (gather (Raw []) (bcs m) o) /\ gather (Raw []) (bcs m) o <> [] /\ length (gather (Raw []) (bcs m) o) = length o.
  Proof.
    intros E Hx. assert (forall i, In i o -> i < length (bcs m)) as Hi.
    { intros i Hi. pose proof (wf_perm W) as Hp. apply (is_perm_In i Hp). rewrite Eo. cbn [concat]. rewrite app_nil_r. rewrite Eo in E. apply in_or_app. destruct x as [|[|x]]; cbn in E; subst; auto; lia. }
    assert (o <> []) as No by (destruct (mo_ne W Eo); rewrite Eo in E; destruct x as [|[|x]]; cbn in E; subst; auto; lia).
    split; [|split; [|split; [|split]]].
    - unfold axis_legs. rewrite <- E. apply legs_gather; [apply (wf_len W) | exact Hi].
    - unfold gather. rewrite !map_length. reflexivity.
    - apply all_ok_gather, (wf_ok W).
    - destruct o; [congruence | discriminate].
    - apply map_length.
  Qed.
  Lemma axis_legs_first f data o x : o = nth x (bord m) [] -> x < 2 ->
    axis_legs (bond_first q f data m o) 0 = [(rep q, f)] /\ axis_legs (bond_first q f data m o) 1 = axis_legs m x /\ elegs (bond_first q f data m o) = (rep q, f) :: axis_legs m x.
  Proof.
    intros E Hx. destruct (side_legs E Hx) as (E1 & E2 & E3 & E4 & E5). assert (elegs (bond_first q f data m o) = (rep q, f) :: axis_legs m x) as EE.
    { unfold elegs, bond_first. cbn [bcs bfs]. rewrite legs_cons, E1. reflexivity. }
    split; [|split; [|exact EE]]; unfold axis_legs at 1; rewrite EE; unfold bond_first; cbn [bord nth]; [reflexivity|].
    assert (length o = length (axis_legs m x)) as -> by (unfold axis_legs; rewrite <- E; symmetry; apply map_length).
    rewrite <- seq_shift. unfold gather. rewrite map_map. cbn [nth]. apply (gather_seq ([], false)).
  Qed.
  (** the tensor with the bond as first leg and the legs of axis x *)
  Lemma bond_first_spec x o f (g : G -> nat -> nat -> K) data : o = nth x (bord m) [] -> x < 2 ->
    data = bond_data qs ks f (axis_legs m x) (fun y i => g (nth (fst y) qs qid) (snd y) i) ->
    let T := bond_first q f data m o in
    wf_bst T /\ shape (dense_of T) = [gn (bondG qs k); nprod (ldims (axis_legs m x))] /\
    graded (m_of T) (bondG qs k) (legG (if f then axis_legs m x else map flip (axis_legs m x))) g.
  Proof.
    intros E Hx -> T. destruct (side_legs E Hx) as (E1 & E2 & E3 & E4 & E5). set (Lx := axis_legs m x) in *.
    pose proof (@bond_wf G K qs ks f Lx (fun y i => g (nth (fst y) qs qid) (snd y) i) q _ _ Hq Rq E3 E2 E4 E1) as WT.
    pose proof (@bond_shape G K qs ks f Lx (fun y i => g (nth (fst y) qs qid) (snd y) i) q _ _ Rq E2 E1) as ST.
    unfold bond_tensor in WT, ST. rewrite E5 in WT, ST. fold T in WT, ST.
    change (BST (bond_data qs ks f Lx (fun y i => g (nth (fst y) qs qid) (snd y) i)) (q :: gather (Raw []) (bcs m) o) (f :: gather false (bfs m) o) [[0]; seq 1 (length o)]) with T in WT, ST.
    split; [exact WT|]. split; [exact ST|]. intros b i Hb Hi. cbn [bondG legG gn gch gloc] in *.
    assert (i < nprod (ldims Lx)) as Hi' by (destruct f; [exact Hi | rewrite ldims_flip in Hi; exact Hi]).
    pose proof (@bond_elt G K qs ks f Lx (fun y i => g (nth (fst y) qs qid) (snd y) i) q _ _ Rq E2 E1 b i Hb Hi') as EE. unfold bond_tensor in EE. rewrite E5 in EE.
    change (BST (bond_data qs ks f Lx (fun y i => g (nth (fst y) qs qid) (snd y) i)) (q :: gather (Raw []) (bcs m) o) (f :: gather false (bfs m) o) [[0]; seq 1 (length o)]) with T in EE.
    unfold m_of. rewrite EE. cbv zeta. set (y := nth b (bonds ks) (0, 0)). unfold partner. destruct f.
    - destruct (qdec (charge_of Lx (unravel (ldims Lx) i)) (nth (fst y) qs qid)) as [E'|E']; destruct (qdec (nth (fst y) qs qid) (charge_of Lx (unravel (ldims Lx) i))) as [E''|E'']; congruence.
    - rewrite ldims_flip, charge_of_flip, sector_flip, qinv_inv.
      destruct (qdec (charge_of Lx (unravel (ldims Lx) i)) (qinv (nth (fst y) qs qid))) as [E'|E']; destruct (qdec (nth (fst y) qs qid) (qinv (charge_of Lx (unravel (ldims Lx) i)))) as [E''|E''].
      + rewrite <- E'. reflexivity.
      + exfalso. apply E''. rewrite E', qinv_inv. reflexivity.
      + exfalso. apply E'. rewrite E'', qinv_inv. reflexivity.
      + reflexivity.
  Qed.
  (** with the bond last *)
  Lemma bond_last_spec x o f (g : G -> nat -> nat -> K) data : o = nth x (bord m) [] -> x < 2 ->
    data = bond_data qs ks f (axis_legs m x) (fun y i => g (nth (fst y) qs qid) (snd y) i) ->
    exists T, btranspose (bond_first q f data m o) [1; 0] = Ok T /\ wf_bst T /\ shape (dense_of T) = [nprod (ldims (axis_legs m x)); gn (bondG qs k)] /\
      bcs T = q :: gather (Raw []) (bcs m) o /\ bfs T = f :: gather false (bfs m) o /\ bord T = [seq 1 (length o); [0]] /\
      axis_legs T 0 = axis_legs m x /\ axis_legs T 1 = [(rep q, f)] /\
      graded (m_of T) (legG (if f then axis_legs m x else map flip (axis_legs m x))) (bondG qs k) (fun q a b => g q b a).
  Proof.
    intros E Hx ED. destruct (@bond_first_spec x o f g data E Hx ED) as (WT & ST & GT).
    destruct (@axis_legs_first f data o x E Hx) as (A0 & A1 & EE).
    destruct (@btranspose_spec G K (bond_first q f data m o) [1; 0] WT) as (T & ET & WT' & D1 & D2 & D3 & D4 & TS & TE).
    { unfold ndim. cbn. apply perm_swap. }
    exists T. split; [exact ET|]. split; [exact WT'|]. split; [rewrite TS; unfold transpose; cbn [shape]; rewrite ST; reflexivity|].
    split; [exact D2|]. split; [exact D3|]. split; [exact D4|]. 
    assert (elegs T = elegs (bond_first q f data m o)) as EL by (unfold elegs; rewrite D2, D3; reflexivity).
    split; [|split].
    - rewrite <- A1. unfold axis_legs at 1 2. rewrite EL, D4. reflexivity.
    - rewrite <- A0. unfold axis_legs at 1 2. rewrite EL, D4. reflexivity.
    - apply (@graded_ext _ _ (fun i b => m_of (bond_first q f data m o) b i)); [|apply graded_tr, GT].
      intros i b Hi Hb. assert (i < nprod (ldims (axis_legs m x))) as Hi' by (cbn [legG gn] in Hi; destruct f; [exact Hi | rewrite ldims_flip in Hi; exact Hi]).
      unfold m_of. rewrite TE; [reflexivity|]. rewrite TS. unfold transpose. cbn [shape]. rewrite ST. constructor; [exact Hi'|]. constructor; [exact Hb | constructor].
  Qed.
  (** how many positions of the bond have a charge *)
  Lemma bond_sector q' : length (sector [(rep q, false)] q') = if in_dec qdec q' qs then k q' else 0.
  Proof.
    change (length (sector [(rep q, false)] q')) with (gsz (legG [(rep q, false)]) q'). change (if in_dec qdec q' qs then k q' else 0) with (gsz (bondG qs k) q').
    pose proof (gok_positions q' (@legG_ok G [(rep q, false)])) as P1. pose proof (gok_positions q' (@bondG_ok G qs k qs_nodup)) as P2.
    apply Permutation_length in P1, P2. rewrite map_length, seq_length in P1, P2. rewrite <- P1, <- P2.
    cbn [legG bondG gn gch ldims map fst nprod fold_right]. rewrite Nat.mul_1_r, Rq, map_length. f_equal. apply filter_ext_in. intros b Hb. apply in_seq in Hb.
    cbn [unravel nprod fold_right]. rewrite Nat.div_1_r. cbn [charge_of]. unfold leg_charge. cbn [fst snd]. rewrite qcomm, qidl.
    rewrite (@nth_map_lt _ _ _ _ _ _ (0, 0)) by lia. reflexivity.
  Qed.
End Factor.
