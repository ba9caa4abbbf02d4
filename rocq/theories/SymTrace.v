(** * SymTrace: one contraction with an identity is a trace of the dense tensor *)
From Coq Require Import Permutation List Lia Arith Sorting.Sorted.
From Verif Require Import Prelude Algebra Tensor TensorFacts Res Charge ChargeFacts BlockSparse BlockSpec BstSpec ListFacts BlockFacts BlockReduce BlockMaps BlockTr BlockPart BstFacts BstConv BstDot BstTensordot BstOps SymSvd SymSvdBond SymSvdTensorFacts SymLinalg SymLinalgSpec SymLinalgGrade SymLinalgMat SymLinalgBond SymLinalgFact SymLinalgInv SymLinalgDiag.
Import ListNotations.
Set Implicit Arguments.
Unset Strict Implicit.

Lemma free_axes_full n ax : NoDup ax -> (forall i, In i ax -> i < n) -> length ax = n -> free_axes n ax = [].
Proof.
  intros N B L. apply length_zero_iff_nil. pose proof (is_perm_length (free_axes_perm N B)) as H. rewrite app_length in H. lia.
Qed.

(** position of an axis among those that are left *)
Lemma shift_pos i j n x : i <> j -> i < n -> j < n -> x < n -> x <> i -> x <> j ->
  shift_axis i j x < length (free_axes n [i; j]) /\ nth (shift_axis i j x) (free_axes n [i; j]) 0 = x.
Proof.
  assert (forall a b n x, a < b -> b < n -> x < n -> x <> a -> x <> b -> free_axes n [a; b] = seq 0 a ++ seq (S a) (b - S a) ++ seq (S b) (n - S b)) as F.
  { clear. intros a b n x Hab Hb _ _ _. unfold free_axes.
    assert (seq 0 n = seq 0 a ++ a :: seq (S a) (b - S a) ++ b :: seq (S b) (n - S b)) as ->.
    { replace n with (a + S (b - S a + S (n - S b))) at 1 by lia. rewrite seq_app. cbn [seq]. rewrite Nat.add_0_l. f_equal. f_equal. rewrite seq_app. cbn [seq]. replace (S a + (b - S a)) with b by lia. reflexivity. }
    assert (forall l, (forall y, In y l -> y <> a /\ y <> b) -> filter (fun i => negb (mem i [a; b])) l = l) as K.
    { intros l Hl. induction l as [|y l IH]; [reflexivity|]. cbn [filter]. destruct (Hl y (or_introl eq_refl)) as [Ya Yb].
      assert (mem y [a; b] = false) as ->. { apply mem_nIn. intros [<-|[<-|[]]]; congruence. } cbn [negb]. rewrite IH; [reflexivity | intros z Hz; apply Hl; right; exact Hz]. }
    assert (forall y, y = a \/ y = b -> negb (mem y [a; b]) = false) as K2.
    { intros y Hy. apply negb_false_iff. apply mem_In. destruct Hy as [->| ->]; [left|right; left]; reflexivity. }
    rewrite filter_app. cbn [filter]. rewrite K2 by (left; reflexivity). rewrite filter_app. cbn [filter]. rewrite K2 by (right; reflexivity).
    rewrite !K; [reflexivity | | |]; intros y Hy; apply in_seq in Hy; lia. }
  assert (forall a b x, a < b -> b < n -> x < n -> x <> a -> x <> b ->
    (if b <? x then x - 2 else if a <? x then x - 1 else x) < length (free_axes n [a; b]) /\ nth (if b <? x then x - 2 else if a <? x then x - 1 else x) (free_axes n [a; b]) 0 = x) as M.
  { intros a b y Hab Hb Hy Ya Yb. rewrite (F a b n y) by assumption. rewrite !app_length, !seq_length.
    destruct (Nat.ltb_spec b y).
    - split; [lia|]. rewrite app_nth2 by (rewrite seq_length; lia). rewrite seq_length. rewrite app_nth2 by (rewrite seq_length; lia). rewrite seq_length, seq_nth by lia. lia.
    - destruct (Nat.ltb_spec a y).
      + split; [lia|]. rewrite app_nth2 by (rewrite seq_length; lia). rewrite seq_length. rewrite app_nth1 by (rewrite seq_length; lia). rewrite seq_nth by lia. lia.
      + split; [lia|]. rewrite app_nth1 by (rewrite seq_length; lia). rewrite seq_nth by lia. lia. }
  intros N Hi Hj Hx Xi Xj. unfold shift_axis.
  assert (free_axes n [i; j] = free_axes n [j; i]) as Sw.
  { unfold free_axes. apply filter_ext. intros k. f_equal. destruct (mem k [i; j]) eqn:E; symmetry.
    - apply mem_In in E. apply mem_In. destruct E as [<-|[<-|[]]]; [right; left|left]; reflexivity.
    - apply mem_nIn in E. apply mem_nIn. intros [<-|[<-|[]]]; apply E; [right; left|left]; reflexivity. }
  destruct (Nat.lt_ge_cases i j) as [H|H].
  - rewrite Nat.max_r, Nat.min_l by lia. apply M; assumption.
  - rewrite Nat.max_l, Nat.min_r by lia. rewrite Sw. apply M; (assumption || lia).
Qed.

Section Step.
  Context {G : chg} {K : csr}.
  Add Ring KringT : (rsr K).
  Variables lim blim junk : nat.
  Hypothesis lim_pos : 0 < lim.
  Variable emp : K.
  Notation bst := (bst G K).

  (** charges, flows and order of a contraction *)
  Lemma btensordot_frame (t1 t2 t : bst) ax1 ax2 : ax1 <> [] -> NoDup ax1 -> NoDup ax2 ->
    btensordot lim blim junk t1 t2 ax1 ax2 = Ok t ->
    let fo1 := gather [] (bord t1) (free_axes (ndim t1) ax1) in
    let fo2 := gather [] (bord t2) (free_axes (ndim t2) ax2) in
    bcs t = gather (Raw []) (bcs t1) (concat fo1) ++ gather (Raw []) (bcs t2) (concat fo2) /\
    bfs t = gather false (bfs t1) (concat fo1) ++ gather false (bfs t2) (concat fo2) /\
    bord t = groups_from 0 (map (@length nat) fo1) ++ groups_from (length (concat fo1)) (map (@length nat) fo2).
  Proof.
    clear lim_pos. intros Ne N1 N2 H. unfold btensordot in H.
    destruct (Nat.eqb_spec (length ax1) (length ax2)) as [EL|]; [|discriminate]. cbn [negb] in H.
    destruct (_ || _); [discriminate|]. destruct (Nat.eqb_spec (length ax1) 0) as [Z|_]; [apply length_zero_iff_nil in Z; contradiction|].
    destruct (_ && _) eqn:B in H; [|discriminate]. cbn [negb] in H. apply andb_true_iff in B. destruct B as [B1 B2]. rewrite forallb_forall in B1, B2.
    assert (forall i, In i ax1 -> i < ndim t1) as C1 by (intros i Hi; apply Nat.ltb_lt, B1, Hi).
    assert (forall i, In i ax2 -> i < ndim t2) as C2 by (intros i Hi; apply Nat.ltb_lt, B2, Hi).
    destruct (negb _); [discriminate|]. destruct (negb _); [discriminate|]. destruct (negb _); [discriminate|].
    destruct (_ && _) eqn:E in H.
    - apply andb_true_iff in E. destruct E as [E1 E2]. apply Nat.eqb_eq in E1, E2.
      rewrite (free_axes_full N1 C1 E1), (free_axes_full N2 C2 E2). cbn.
      destruct (btranspose t1 ax1); try discriminate. cbn [rbind] in H. destruct (contiguous _ _ _ _); try discriminate. cbn [rbind] in H.
      destruct (btranspose t2 ax2); try discriminate. cbn [rbind] in H. destruct (contiguous _ _ _ _); try discriminate. cbn [rbind] in H.
      destruct (_ =? _); [|discriminate]. injection H as <-. cbn. repeat split.
    - cbv zeta in H. cbv zeta. destruct (tr_blocks _ _ _ (bcs t1) _ _ _); try discriminate. cbn [rbind] in H.
      destruct (tr_blocks _ _ _ (bcs t2) _ _ _); try discriminate. cbn [rbind] in H.
      destruct (tr_blocks _ _ _ _ _ _ _); try discriminate. cbn [rbind] in H. destruct (fold_left _ _ _); try discriminate. cbn [rbind] in H.
      injection H as <-. cbn [bcs bfs bord]. rewrite gather_length. repeat split.
  Qed.

  (** *** tensors whose axes are elementary legs *)
  Definition singles (t : bst) : Prop := forall o, In o (bord t) -> length o = 1.
  Definition leg_at (t : bst) (p : nat) : nat := hd 0 (nth p (bord t) []).
  Definition charge_at (t : bst) (p : nat) : bc G := nth (leg_at t p) (bcs t) (Raw []).
  Definition flow_at (t : bst) (p : nat) : bool := nth (leg_at t p) (bfs t) false.
  Definition same_charge (c d : bc G) : Prop := uniques c = uniques d /\ labels c = labels d.

  Lemma same_charge_equal c d : same_charge c d -> charge_equal c d = true.
  Proof.
    clear lim_pos. intros [U L]. assert (rep c = rep d) as R by (rewrite !rep_uniques, U, L; reflexivity). unfold charge_equal.
    assert (bdim c = bdim d) as ->. { rewrite !ChargeFacts.bdim_rep, R. reflexivity. }
    rewrite Nat.eqb_refl. destruct c as [l|u l], d as [l'|u' l']; cbn [rep uniques labels] in *; try (apply leqb_true; assumption).
    rewrite andb_true_iff. split; apply leqb_true; assumption.
  Qed.

  Lemma single_group (t : bst) p : singles t -> p < ndim t -> nth p (bord t) [] = [leg_at t p].
  Proof.
    clear lim_pos. intros S Hp. unfold leg_at. specialize (S (nth p (bord t) []) (nth_In _ _ Hp)). destruct (nth p (bord t) []) as [|o [|]]; try discriminate. reflexivity.
  Qed.
  Lemma singles_shape (t : bst) : wf_bst t -> singles t -> forall p, p < ndim t -> nth p (shape (dense_of t)) 0 = bdim (charge_at t p).
  Proof.
    clear lim_pos. intros W S p Hp. rewrite <- (wf_shape W). unfold bshape. rewrite (nth_map_lt _ 0 []) by exact Hp. rewrite (single_group S Hp).
    cbn [gather map]. unfold nprod. cbn [fold_right]. rewrite Nat.mul_1_r. unfold edims, charge_at.
    change 0 with (bdim (Raw (G := G) [])) at 1. rewrite map_nth. reflexivity.
  Qed.
  Lemma nsum_pick n a (f : nat -> K) : a < n -> nsum n (fun c => f c *! (if a =? c then r1 else r0)) = f a.
  Proof.
    clear lim_pos. intros Ha. unfold nsum. rewrite (@lsum_single K nat (seq 0 n) _ a).
    - rewrite Nat.eqb_refl. ring.
    - apply seq_NoDup.
    - apply in_seq. lia.
    - intros c _ N. destruct (Nat.eqb_spec a c); [congruence|]. ring.
  Qed.

  Theorem trace_step (t : bst) i j : wf_bst t -> singles t -> i < ndim t -> j < ndim t -> i <> j ->
    same_charge (charge_at t j) (charge_at t i) -> flow_at t j = negb (flow_at t i) ->
    exists id u, lin_eye lim blim emp ([nth (leg_at t i) (bcs t) (Raw [])], [negb (nth (leg_at t i) (bfs t) false)]) None = Ok id /\
      btensordot lim blim junk t id [i; j] [0; 1] = Ok u /\ wf_bst u /\ singles u /\ ndim u = length (free_axes (ndim t) [i; j]) /\
      bcs u = map (charge_at t) (free_axes (ndim t) [i; j]) /\ bfs u = map (flow_at t) (free_axes (ndim t) [i; j]) /\
      bord u = map (fun p => [p]) (seq 0 (ndim u)) /\
      teq (dense_of u) (trace2 (dense_of t) i j).
  Proof.
    intros W S Hi Hj Nij SC FL. fold (charge_at t i). fold (flow_at t i).
    set (c := charge_at t i) in *. set (f := flow_at t i) in *.
    assert (forall p, p < ndim t -> leg_at t p < length (bcs t)) as LB.
    { intros p Hp. apply (@is_perm_In _ _ _ (wf_perm W)). apply in_concat. exists (nth p (bord t) []). split; [apply nth_In, Hp|]. rewrite (single_group S Hp). left. reflexivity. }
    assert (wf_index ([c], [negb f])) as WI.
    { split; [reflexivity|]. split; [discriminate|]. intros d [<-|[]]. apply (wf_ok W). apply nth_In, LB, Hi. }
    destruct (@eye_square G K lim blim lim_pos emp _ WI) as (id & Eid & Wid & B1 & B2 & B3 & _ & _ & Sid & Vid). cbn [fst snd map app length seq] in B1, B2, B3. rewrite negb_involutive in B2.
    assert (idim ([c], [negb f]) = bdim c) as Ed by (unfold idim, nprod; cbn; lia). rewrite Ed in Sid, Vid.
    assert (bdim (charge_at t j) = bdim c) as Edj.
    { destruct SC as [SC1 SC2]. rewrite !ChargeFacts.bdim_rep, !rep_uniques, SC1, SC2. reflexivity. }
    assert (NoDup [i; j]) as NDij by (constructor; [intros [E|[]]; congruence | constructor; [intros [] | constructor]]).
    assert (ndim id = 2) as Nid by (unfold ndim; rewrite B3; reflexivity).
    assert (forall k, In k [i; j] -> k < ndim t) as Rij by (intros k [<-|[<-|[]]]; assumption).
    assert (con_legs t [i; j] = [leg_at t i; leg_at t j]) as CLt.
    { unfold con_legs. cbn [gather map concat]. rewrite !single_group by assumption. reflexivity. }
    assert (con_legs id [0; 1] = [0; 1]) as CLi by (unfold con_legs; rewrite B3; reflexivity).
    assert (compatible t id [i; j] [0; 1]) as HC.
    { split; [reflexivity|]. split; [exact NDij|]. split; [repeat constructor; cbn; intuition discriminate|]. split; [exact Rij|].
      split; [intros k [<-|[<-|[]]]; rewrite Nid; lia|]. split.
      { rewrite (wf_shape W), (wf_shape Wid), Sid. cbn [gather map nth]. rewrite !(singles_shape W S) by assumption. fold c. rewrite Edj. reflexivity. }
      rewrite CLt, CLi. split; [reflexivity|]. rewrite B1, B2. cbn [gather map nth combine forallb fst snd].
      fold (flow_at t i) (flow_at t j) (charge_at t i) (charge_at t j). fold c. fold f. split; [rewrite FL, negb_involutive; reflexivity|].
      rewrite !same_charge_equal; [reflexivity | exact SC | split; reflexivity]. }
    destruct (@btensordot_spec G K lim blim junk lim_pos t id [i; j] [0; 1] W Wid HC) as (u & Eu & Wu & Tu).
    { rewrite B3. intros E. apply app_eq_nil in E. destruct E as [_ E]. discriminate. }
    exists id, u. split; [exact Eid|]. split; [exact Eu|]. split; [exact Wu|].
    assert (free_axes (ndim id) [0; 1] = []) as F2 by (rewrite Nid; reflexivity).
    pose proof (@btensordot_frame t id u [i; j] [0; 1] ltac:(discriminate) NDij (proj1 (proj2 (proj2 HC))) Eu) as FR. cbv zeta in FR. rewrite F2 in FR.
    cbn [gather map concat groups_from] in FR. rewrite !app_nil_r in FR. destruct FR as (FR1 & FR2 & FR3).
    set (F := free_axes (ndim t) [i; j]) in *.
    assert (forall k, In k F -> k < ndim t) as RF by (intros k Hk; apply In_free_axes in Hk; apply Hk).
    assert (map (fun k => nth k (bord t) []) F = map (fun k => [leg_at t k]) F) as EF.
    { apply map_ext_in. intros k Hk. apply single_group; [exact S | apply RF, Hk]. }
    fold (gather [] (bord t) F) in EF. rewrite EF in FR1, FR2, FR3.
    assert (forall l : list nat, concat (map (fun k => [leg_at t k]) l) = map (leg_at t) l) as CC by (induction l as [|k l IH]; [reflexivity | cbn; rewrite IH; reflexivity]).
    rewrite CC in FR1, FR2. unfold gather in FR1, FR2. rewrite map_map in FR1, FR2. rewrite map_map in FR3. cbn [length] in FR3.
    assert (forall (l : list nat) s, groups_from s (map (fun _ => 1) l) = map (fun p => [p]) (seq s (length l))) as GF.
    { induction l as [|k l IH]; intros s; [reflexivity|]. cbn [map groups_from length seq]. rewrite IH. rewrite Nat.add_1_r. reflexivity. }
    rewrite GF in FR3.
    assert (ndim u = length F) as Nu by (unfold ndim; rewrite FR3, map_length, seq_length; reflexivity).
    split; [intros o Ho; rewrite FR3 in Ho; apply in_map_iff in Ho; destruct Ho as (k & <- & _); reflexivity|].
    split; [exact Nu|]. split; [exact FR1|]. split; [exact FR2|]. split; [rewrite Nu; exact FR3|].
    eapply teq_trans; [exact Tu|].
    assert (rank (dense_of t) = ndim t) as Rt by (unfold rank; rewrite <- (wf_shape W); apply map_length).
    assert (rank (dense_of id) = ndim id) as Rid by (unfold rank; rewrite <- (wf_shape Wid); apply map_length).
    unfold teq, tensordot, trace2. cbn [shape elt]. rewrite Rt, Rid, F2. fold F. cbn [gather map]. rewrite app_nil_r. split; [reflexivity|].
    intros ix Hix. pose proof (valid_length Hix) as Lx. rewrite gather_length in Lx. rewrite <- Lx, firstn_all, skipn_all. cbn [app].
    rewrite !(singles_shape W S) by assumption. fold c. rewrite Edj. rewrite lsum_idxs_cons. apply nsum_ext. intros a Ha. rewrite lsum_idxs_cons.
    transitivity (nsum (bdim c) (fun b => elt (dense_of t) (unperm 0 (F ++ [i; j]) (ix ++ [a; b])) *! (if a =? b then r1 else r0))).
    - apply nsum_ext. intros b Hb. cbn [idxs]. rewrite lsum_cons, lsum_nil.
      change (unperm 0 [0; 1] [a; b]) with [a; b]. fold (m_of id a b). rewrite (Vid a b Ha Hb). unfold delta. ring.
    - apply (@nsum_pick _ _ (fun b => elt (dense_of t) (unperm 0 (F ++ [i; j]) (ix ++ [a; b])))). exact Ha.
  Qed.
End Step.
