(** * SymSvdReshape: the symmetric svd of tensors of any rank, via the matrix case *)
From Coq Require Import Permutation Reals List Lia Sorting.Sorted.
From Verif Require Import Prelude Algebra Tensor TensorFacts Res Charge ChargeFacts BlockSparse BlockSpec BstSpec ListFacts BlockFacts BlockDegen BlockReduce BlockMaps BlockTr BlockPart BstFacts BstConv BstDot BstTensordot BstOps SvdTrunc SvdTruncFacts SymSvd SymSvdFacts SymSvdMain SymSvdBond SymSvdTensor SymSvdTensorFacts SymSvdSpec SymSvdTensorMain.
Import ListNotations.
Set Implicit Arguments.
Unset Strict Implicit.

Lemma unravel_mat n D a b : a < n -> b < D -> unravel [n; D] (a * D + b) = [a; b].
Proof.
  intros Ha Hb. assert (valid [a; b] [n; D]) as V by (repeat constructor; assumption).
  transitivity (unravel [n; D] (ravel [n; D] [a; b])); [f_equal; cbn [ravel nprod fold_right]; lia | apply unravel_ravel, V].
Qed.
Lemma reshape_left (K : csr) (u : tensor K) left D ix b : shape u = [nprod left; D] -> valid ix left -> b < D ->
  elt (reshape u (left ++ [D])) (ix ++ [b]) = elt u [ravel left ix; b].
Proof.
  intros E V Hb. cbn [reshape elt]. rewrite E, ravel_app by (apply (valid_length V)). cbn [ravel nprod fold_right].
  rewrite !Nat.mul_1_r, Nat.add_0_r, unravel_mat; [reflexivity | apply ravel_lt, V | exact Hb].
Qed.
Lemma reshape_right (K : csr) (u : tensor K) right D jx b : shape u = [D; nprod right] -> valid jx right -> b < D ->
  elt (reshape u (D :: right)) (b :: jx) = elt u [b; ravel right jx].
Proof.
  intros E V Hb. cbn [reshape elt]. rewrite E. cbn [ravel].
  rewrite unravel_mat; [reflexivity | exact Hb | apply ravel_lt, V].
Qed.
Lemma reshape_pair (K : csr) (u : tensor K) left right ix jx : shape u = left ++ right -> valid ix left -> valid jx right ->
  elt (reshape u [nprod left; nprod right]) [ravel left ix; ravel right jx] = elt u (ix ++ jx).
Proof.
  intros E Vi Vj. cbn [reshape elt]. rewrite E. f_equal.
  rewrite <- (unravel_ravel (valid_app Vi Vj)). f_equal. rewrite ravel_app by (apply (valid_length Vi)). cbn [ravel nprod fold_right]. rewrite Nat.mul_1_r, Nat.mul_1_r. lia.
Qed.
Lemma bdim_rep (G : chg) (q : bc G) : bdim q = length (rep q).
Proof. destruct q; cbn; [reflexivity | symmetry; apply gather_length]. Qed.

Lemma ones_between A (gl : list (list A)) g dl x : concat (gl ++ [g]) = dl ++ x -> length x < length g ->
  exists g1, g1 <> [] /\ dl = concat gl ++ g1 /\ g = g1 ++ x.
Proof.
  rewrite concat_app. cbn [concat]. rewrite app_nil_r. intros E Hl.
  assert (length dl = length (concat gl) + (length g - length x)) as Ll.
  { apply (f_equal (@length A)) in E. rewrite !app_length in E. lia. }
  exists (firstn (length g - length x) g). split; [|split].
  - intros E0. apply (f_equal (@length A)) in E0. rewrite firstn_length in E0. cbn in E0. lia.
  - transitivity (firstn (length dl) (concat gl ++ g)); [rewrite E, firstn_app, Nat.sub_diag, firstn_all, app_nil_r; reflexivity|].
    rewrite Ll, firstn_app. rewrite firstn_all2 by lia. f_equal. f_equal. lia.
  - rewrite <- (firstn_skipn (length g - length x) g) at 1. f_equal.
    transitivity (skipn (length dl) (concat gl ++ g)); [|rewrite E, skipn_app, Nat.sub_diag, skipn_all; reflexivity].
    rewrite Ll, skipn_app. rewrite (skipn_all2 (concat gl)) by lia. cbn [app]. f_equal. lia.
Qed.
Lemma groupable_app a b x y : groupable a x -> groupable b y -> groupable (a ++ b) (x ++ y).
Proof.
  intros (g & E1 & E2 & E3) (h & F1 & F2 & F3). exists (g ++ h). rewrite concat_app, map_app, E1, E2, F1, F2.
  repeat split. intros z Hz. apply in_app_or in Hz as [Hz|Hz]; auto.
Qed.
Lemma groupable_one d : groupable [d] [d].
Proof. exists [[d]]. cbn. rewrite Nat.mul_1_r. repeat split. intros g [<-|[]]; discriminate. Qed.
Lemma firstn_app_le A (l a b : list A) : l = a ++ b -> forall c d, l = c ++ d -> length a <= length c -> exists x, c = a ++ x /\ b = x ++ d.
Proof.
  intros -> c d E H. exists (skipn (length a) c).
  assert (a = firstn (length a) c) as Ha.
  { rewrite <- (firstn_all a) at 1. transitivity (firstn (length a) (a ++ b)); [rewrite firstn_app, Nat.sub_diag, app_nil_r; reflexivity|].
    rewrite E, firstn_app. replace (length a - length c) with 0 by lia. apply app_nil_r. }
  split; [rewrite Ha at 1; symmetry; apply firstn_skipn|].
  transitivity (skipn (length a) (a ++ b)); [rewrite skipn_app, Nat.sub_diag, skipn_all; reflexivity|].
  rewrite E, skipn_app. replace (length a - length c) with 0 by lia. reflexivity.
Qed.

(** the first group of a reshape to a matrix is the shortest possible *)
Lemma first_shortest (G : chg) (K : csr) (t m : bst G K) n1 n2 : wf_bst t -> breshape t [n1; n2] = Ok m ->
  m = t \/ forall o0 o1, bord m = [o0; o1] -> forall dp rest, flat_dims t = dp ++ rest -> dp <> [] -> nprod dp = n1 -> length o0 <= length dp.
Proof.
  intros W H. unfold breshape in H. destruct (leqb Nat.eq_dec [n1; n2] (bshape t)); [left; congruence|]. right.
  destruct (nprod [n1; n2] =? nprod (bshape t)); [|discriminate]. unfold flat_order in H. rewrite <- (wf_dims W) in H. fold (flat_dims t) in H.
  destruct (length (bcs t) <? _); [discriminate|]. destruct (existsb _ (flat_dims t)); [discriminate|].
  destruct (partitions [n1; n2] (flat_dims t)) as [[ps rest']| |] eqn:E; try discriminate. cbn [rbind fst snd] in H.
  destruct (forallb _ rest'); [|discriminate]. injection H as <-. cbn [bord]. intros o0 o1 Eo dp rest Ed Hne Hn.
  cbn [partitions] in E. pose proof (prefix_found (flat_dims t) n1) as P. destruct (flatnonzero _) as [|k r]; [discriminate|]. destruct P as (Hk & _ & P).
  destruct (flatnonzero (map _ (cumprod_from 1 (skipn (k + 1) (flat_dims t))))) as [|k' r']; [discriminate|]. cbn [rbind fst snd] in E. injection E as <- <-.
  unfold add_last in Eo. cbn [rev app split_lens] in Eo. injection Eo as <- _. rewrite firstn_length.
  assert (k <= length dp - 1); [|assert (length dp <> 0) by (intros Z; apply Hne, length_zero_iff_nil, Z); lia].
  assert (length dp <> 0) by (intros Z; apply Hne, length_zero_iff_nil, Z).
  apply P; [rewrite Ed, app_length; lia|]. replace (S (length dp - 1)) with (length dp) by lia. rewrite Ed, firstn_app, Nat.sub_diag, firstn_all, app_nil_r. exact Hn.
Qed.

Section Tensor.
  Context {G : chg} {K : csr}.
  Variables lim blim junk : nat.
  Hypothesis lim_pos : 0 < lim.
  Variable np_svd : nat -> nat -> list K -> mat K * list R * mat K.
  Variable inj : R -> K.
  Variable t : bst G K.
  Variable pivot : nat.
  Hypothesis W : wf_bst t.
  Hypothesis Hp : 0 < pivot < length (bshape t).
  Notation left := (firstn pivot (bshape t)).
  Notation right := (skipn pivot (bshape t)).

  Lemma as_matrix0 m : breshape t [nprod left; nprod right] = Ok m ->
    wf_bst m /\ bdata m = bdata t /\ bcs m = bcs t /\ bfs m = bfs t /\ concat (bord m) = concat (bord t) /\ bshape m = [nprod left; nprod right] /\
    (exists o0 o1, bord m = [o0; o1]) /\
    forall ix jx, valid ix left -> valid jx right -> elt (dense_of m) [ravel left ix; ravel right jx] = elt (dense_of t) (ix ++ jx).
  Proof.
    intros E. destruct (@breshape_sound G K t [nprod left; nprod right] m W) as (Wm & E1 & E2 & E3 & E4 & E5 & _ & E6); [discriminate | exact E |].
    do 6 (split; [assumption|]). split.
    - unfold bshape in E5. destruct (bord m) as [|o0 [|o1 [|? ?]]] eqn:Eb; try discriminate. eauto.
    - intros ix jx Vi Vj. destruct E6 as [Es E6].
      rewrite E6 by (rewrite Es; cbn [reshape shape]; repeat constructor; apply ravel_lt; assumption).
      apply reshape_pair; try assumption. rewrite <- (wf_shape W), firstn_skipn. reflexivity.
  Qed.

  (** the numpy contract for the blocks of every way to cut the legs of t into rows and columns of the right size *)
  Definition tensor_contract : Prop := forall o0 o1, concat (bord t) = o0 ++ o1 -> o0 <> [] -> o1 <> [] ->
    nprod (gather 0 (ldims (elegs t)) o0) = nprod left -> blocks_contract np_svd inj t o0 o1.
  Hypothesis contract : tensor_contract.

  Lemma left_ne : left <> [] /\ right <> [].
  Proof.
    split; intros E; apply (f_equal (@length nat)) in E; rewrite ?firstn_length, ?skipn_length in E; cbn in E; lia.
  Qed.

  Lemma as_matrix m : breshape t [nprod left; nprod right] = Ok m ->
    wf_bst m /\ bdata m = bdata t /\ bcs m = bcs t /\ bfs m = bfs t /\ concat (bord m) = concat (bord t) /\ bshape m = [nprod left; nprod right] /\
    (exists o0 o1, bord m = [o0; o1] /\ blocks_contract np_svd inj m o0 o1) /\
    forall ix jx, valid ix left -> valid jx right -> elt (dense_of m) [ravel left ix; ravel right jx] = elt (dense_of t) (ix ++ jx).
  Proof.
    intros E. destruct (@breshape_sound G K t [nprod left; nprod right] m W) as (Wm & E1 & E2 & E3 & E4 & E5 & _ & E6); [discriminate | exact E |].
    do 6 (split; [assumption|]). split.
    - pose proof E5 as E5'. unfold bshape in E5'. destruct (bord m) as [|o0 [|o1 [|? ?]]] eqn:Eb; try discriminate.
      exists o0, o1. split; [reflexivity|]. cbn [concat] in E4. rewrite app_nil_r in E4.
      assert (elegs m = elegs t) as El by (unfold elegs; rewrite E2, E3; reflexivity).
      pose proof Wm as (_ & _ & _ & _ & Hne). rewrite Eb in Hne.
      assert (blocks_contract np_svd inj t o0 o1) as Ct.
      { apply contract; [symmetry; exact E4 | apply Hne; left; reflexivity | apply Hne; right; left; reflexivity |].
        rewrite (wf_shape Wm), (m_shape Wm Eb) in E5. injection E5 as E5 _. rewrite <- El.
        pose proof (m_groups Wm Eb) as MG. rewrite Eb in MG. cbn [map] in MG. injection MG as MG _. rewrite MG. exact E5. }
      unfold blocks_contract in *. rewrite El, E1. exact Ct.
    - intros ix jx Vi Vj. destruct E6 as [Es E6].
      rewrite E6 by (rewrite Es; cbn [reshape shape]; repeat constructor; apply ravel_lt; assumption).
      apply reshape_pair; try assumption. rewrite <- (wf_shape W), firstn_skipn. reflexivity.
  Qed.

  Lemma back (m U V : bst G K) s q U' V' : bcs m = bcs t -> bfs m = bfs t -> concat (bord m) = concat (bord t) ->
    bond_legs m U V s q -> shape (dense_of U) = [nprod left; length s] -> shape (dense_of V) = [length s; nprod right] ->
    breshape U (left ++ [bdim q]) = Ok U' -> breshape V (bdim q :: right) = Ok V' ->
    bond_legs t U' V' s q /\ shape (dense_of U') = left ++ [length s] /\ shape (dense_of V') = length s :: right /\
    (forall ix b, valid ix left -> b < length s -> elt (dense_of U') (ix ++ [b]) = elt (dense_of U) [ravel left ix; b]) /\
    (forall jx b, valid jx right -> b < length s -> elt (dense_of V') (b :: jx) = elt (dense_of V) [b; ravel right jx]).
  Proof.
    intros M1 M2 M3 (WU & WV & Lq & cl & cr & lft & rgt & B1 & B2 & B3 & B4 & B5 & B6 & B7 & B8 & B9) SU SV EU EV.
    rewrite bdim_rep, Lq in EU, EV.
    destruct (@breshape_sound G K U (left ++ [length s]) U' WU) as (WU' & U1 & U2 & U3 & U4 & U5 & _ & U6); [intros E; apply app_eq_nil in E; destruct E; discriminate | exact EU |].
    destruct (@breshape_sound G K V (length s :: right) V' WV) as (WV' & V1 & V2 & V3 & V4 & V5 & _ & V6); [discriminate | exact EV |].
    rewrite M1, M2 in *. rewrite M3 in B1. destruct U6 as [U6 U7]. destruct V6 as [V6 V7].
    split; [|split; [|split; [|split]]].
    - split; [exact WU'|]. split; [exact WV'|]. split; [exact Lq|]. exists cl, cr, lft, rgt. rewrite U2, U3, U4, V2, V3, V4. repeat split; assumption.
    - exact U6.
    - exact V6.
    - intros ix b Vi Hb. rewrite U7 by (rewrite U6; apply valid_app; [exact Vi | repeat constructor; exact Hb]). apply reshape_left; assumption.
    - intros jx b Vj Hb. rewrite V7 by (rewrite V6; constructor; [exact Hb | exact Vj]). apply reshape_right; assumption.
  Qed.

  Lemma mat_shapes (m U V : bst G K) sf qf Uf Vf s (q : list G) : bshape m = [nprod left; nprod right] ->
    selects (firstn 1 (bshape m)) (skipn 1 (bshape m)) Uf sf qf Vf (dense_of U) s q (dense_of V) ->
    shape (dense_of U) = [nprod left; length s] /\ shape (dense_of V) = [length s; nprod right].
  Proof. intros E (H1 & H2 & _). rewrite E in H1, H2. split; assumption. Qed.

  (** whenever the calls succeed *)
  Theorem tensor_svd rel0 Uf sf qf Vf sd0 qd0 : sym_svd lim blim junk np_svd t pivot None None rel0 = Ok (Uf, (sf, qf), Vf, (sd0, qd0)) ->
    sd0 = [] /\ rep qd0 = [] /\ bond_legs t Uf Vf sf qf /\
    factors inj (dense_of t) left right (dense_of Uf) sf (dense_of Vf) /\
    forall maxsv err relative U s q V sd qd, trunc_args sf maxsv err relative ->
      sym_svd lim blim junk np_svd t pivot maxsv err relative = Ok (U, (s, q), V, (sd, qd)) ->
      length (rep qd) = length sd /\ bond_legs t U V s q /\ keeps_largest sf maxsv err relative s sd /\
      selects left right (dense_of Uf) sf (rep qf) (dense_of Vf) (dense_of U) s (rep q) (dense_of V).
  Proof.
    unfold sym_svd. destruct (breshape t [nprod left; nprod right]) as [m| |] eqn:Em; try discriminate. cbn [rbind].
    destruct (as_matrix Em) as (Wm & D1 & D2 & D3 & D4 & D5 & (o0 & o1 & Eo & Cm) & D6).
    destruct (@matrix_svd G K lim blim junk lim_pos np_svd inj m o0 o1 Wm Eo Cm) as (Uf' & sf' & qf' & Vf' & qd' & R1 & R2 & R3 & R4 & R5 & R6 & _ & R7).
    rewrite R1. cbn [rbind fst snd]. rewrite D5 in R6. destruct R6 as (S1 & S2 & R6). cbn [firstn skipn] in S1, S2, R6.
    destruct (breshape Uf' (left ++ [bdim qf'])) as [U'| |] eqn:EU; try discriminate. cbn [rbind].
    destruct (breshape Vf' (bdim qf' :: right)) as [V'| |] eqn:EV; try discriminate. cbn [rbind].
    intros H. injection H as <- <- <- <- <- <-.
    destruct (back D2 D3 D4 R3 S1 S2 EU EV) as (P1 & P2 & P3 & P4 & P5).
    split; [reflexivity|]. split; [exact R2|]. split; [exact P1|]. split.
    - split; [exact P2|]. split; [exact P3|]. intros ix jx Vi Vj. rewrite <- D6 by assumption.
      pose proof (R6 [ravel left ix] [ravel right jx]) as R6'. cbn [app] in R6'.
      rewrite <- R6' by (repeat constructor; apply ravel_lt; assumption). apply nsum_ext. intros b Hb. rewrite P4, P5 by assumption. reflexivity.
    - intros maxsv err relative U s q V sd qd TA.
      destruct (R7 maxsv err relative TA) as (U2 & s2 & q2 & V2 & sd2 & qd2 & T1 & T2 & T3 & T4 & T5 & T6 & T7).
      rewrite T1. cbn [rbind fst snd].
      destruct (breshape U2 (left ++ [bdim q2])) as [U2'| |] eqn:EU2; try discriminate. cbn [rbind].
      destruct (breshape V2 (bdim q2 :: right)) as [V2'| |] eqn:EV2; try discriminate. cbn [rbind].
      intros H. injection H as <- <- <- <- <- <-.
      destruct (mat_shapes D5 T7) as [Q1 Q2].
      destruct (back D2 D3 D4 T3 Q1 Q2 EU2 EV2) as (P1' & P2' & P3' & P4' & P5').
      split; [exact T2|]. split; [exact P1'|]. split; [exact T6|].
      rewrite D5 in T7. cbn [firstn skipn] in T7. destruct T7 as (_ & _ & sel & I1 & I2 & I3 & I4 & I5 & I6).
      assert (forall b, b < length s2 -> nth b sel 0 < length sf') as Hs.
      { intros b Hb. apply I2, nth_In. rewrite I3, gather_length in Hb. exact Hb. }
      split; [exact P2'|]. split; [exact P3'|]. exists sel. do 4 (split; [assumption|]). split.
      + intros ix b Vi Hb. rewrite P4', P4 by auto. apply (I5 [ravel left ix]); [repeat constructor; apply ravel_lt, Vi | exact Hb].
      + intros b jx Hb Vj. rewrite P5', P5 by auto. apply (I6 b [ravel right jx]); [exact Hb | repeat constructor; apply ravel_lt, Vj].
  Qed.

  Hypothesis Hd : forall d, In d (bshape t) -> 0 < d.
  Hypothesis Hl : nth (pivot - 1) (bshape t) 0 <> 1.

  Lemma flat_pos d : In d (flat_dims t) -> 0 < d.
  Proof.
    unfold flat_dims. rewrite gather_concat. intros H. apply in_concat in H as (g & Hg & Hin). apply in_map_iff in Hg as (o & <- & Ho).
    assert (0 < nprod (gather 0 (ldims (elegs t)) o)) as P.
    { apply Hd. rewrite (wf_dims W). unfold bshape. apply (in_map (fun o => nprod (gather 0 (edims t) o))), Ho. }
    revert P Hin. generalize (gather 0 (ldims (elegs t)) o) as l. clear. induction l as [|x l IH]; [intros _ []|]. rewrite nprod_cons. intros P [<-|H]; [nia | apply IH; [nia | exact H]].
  Qed.
  Lemma edims_bond (U : bst G K) q o f : bcs U = q :: gather (Raw []) (bcs t) o -> f = true \/ f = false ->
    edims U = bdim q :: gather 0 (edims t) o.
  Proof.
    intros E _. unfold edims. rewrite E. cbn [map]. f_equal. unfold gather. rewrite map_map. apply map_ext. intros i.
    symmetry. apply (map_nth (fun c : bc G => bdim c) (bcs t) (Raw [])).
  Qed.
  Lemma gather_shift A (d a : A) l n : n = length l -> gather d (a :: l) (seq 1 n) = l.
  Proof. intros ->. unfold gather. rewrite <- seq_shift, map_map. cbn [nth]. apply (gather_seq d l). Qed.

  Lemma can_reshape (m U V : bst G K) o0 o1 s q : breshape t [nprod left; nprod right] = Ok m -> bord m = [o0; o1] ->
    bond_legs m U V s q -> bord U = [seq 1 (length o0); [0]] -> bord V = [[0]; seq 1 (length o1)] ->
    shape (dense_of U) = [nprod left; length s] -> shape (dense_of V) = [length s; nprod right] -> s <> [] ->
    exists U' V', breshape U (left ++ [bdim q]) = Ok U' /\ breshape V (bdim q :: right) = Ok V'.
  Proof.
    intros Em Eo BL EU EV SU SV Hs. destruct (as_matrix0 Em) as (Wm & D1 & D2 & D3 & D4 & D5 & _ & _).
    destruct BL as (WU & WV & Lq & cl & cr & lft & rgt & B1 & B2 & B3 & B4 & B5 & B6 & B7 & B8 & B9).
    rewrite Eo in B1. cbn [concat] in B1. rewrite app_nil_r in B1.
    assert (length lft = length o0) as Ll.
    { rewrite EU in B4. cbn [concat app] in B4. apply (f_equal (@length nat)) in B4. rewrite B5, !app_length, !seq_length in B4. cbn in B4. lia. }
    assert (lft = o0 /\ rgt = o1) as [-> ->].
    { apply (f_equal (firstn (length o0))) in B1 as B1'. rewrite <- Ll in B1' at 2. rewrite !firstn_app, !Nat.sub_diag, !firstn_all, !app_nil_r in B1'. subst lft.
      split; [reflexivity|]. apply app_inv_head in B1. symmetry; exact B1. }
    destruct (first_shortest W Em) as [-> | Short].
    - (* already a matrix *)
      assert (left = [nprod left]) as El.
      { destruct left_ne as [N1 N2]. rewrite <- (firstn_skipn pivot (bshape t)) in D5. destruct left as [|a [|b l]]; [congruence | cbn; rewrite Nat.mul_1_r; reflexivity |].
        destruct right; [congruence|]. exfalso. apply (f_equal (@length nat)) in D5. rewrite app_length in D5. cbn in D5. lia. }
      assert (right = [nprod right]) as Er.
      { destruct left_ne as [N1 N2]. rewrite <- (firstn_skipn pivot (bshape t)) in D5. destruct right as [|a [|b l]]; [congruence | cbn; rewrite Nat.mul_1_r; reflexivity |].
        destruct left; [congruence|]. exfalso. apply (f_equal (@length nat)) in D5. rewrite app_length in D5. cbn in D5. lia. }
      exists U, V. rewrite bdim_rep, Lq, El, Er. unfold breshape. rewrite (wf_shape WU), SU, (wf_shape WV), SV. cbn [app].
      split.
      + assert (forall l, leqb Nat.eq_dec l l = true) as Lr by (intros; apply leqb_true; reflexivity). rewrite Lr. reflexivity.
      + assert (forall l, leqb Nat.eq_dec l l = true) as Lr by (intros; apply leqb_true; reflexivity). rewrite Lr. reflexivity.
    - specialize (Short o0 o1 Eo).
      set (gs := map (gather 0 (edims t)) (bord t)).
      assert (flat_dims t = concat gs) as Ef by (unfold flat_dims; rewrite (wf_dims W), gather_concat; reflexivity).
      assert (map nprod gs = bshape t) as Eg by (unfold gs, bshape; rewrite map_map; reflexivity).
      assert (forall g, In g gs -> g <> []) as Ng.
      { intros g Hg. apply in_map_iff in Hg as (o & <- & Ho). destruct W as (_ & _ & _ & _ & W'). specialize (W' o Ho). destruct o; [congruence | discriminate]. }
      assert (length gs = length (bshape t)) as Lg by (rewrite <- Eg, map_length; reflexivity).
      set (dl := gather 0 (edims t) o0). set (dr := gather 0 (edims t) o1).
      assert (flat_dims t = dl ++ dr) as Fd by (unfold flat_dims; rewrite (wf_dims W), <- D4, Eo; cbn [concat]; rewrite app_nil_r; apply gather_app).
      assert (flat_dims t = concat (firstn pivot gs) ++ concat (skipn pivot gs)) as Fg by (rewrite Ef, <- concat_app, firstn_skipn; reflexivity).
      assert (left = map nprod (firstn pivot gs)) as El by (rewrite <- Eg, firstn_map; reflexivity).
      assert (right = map nprod (skipn pivot gs)) as Er by (rewrite <- Eg, skipn_map; reflexivity).
      assert (exists gl g, firstn pivot gs = gl ++ [g]) as (gl & g & Egl).
      { destruct (@exists_last _ (firstn pivot gs)) as (gl & g & E); [|exists gl, g; exact E].
        intros E. apply (f_equal (@length _)) in E. rewrite firstn_length in E. cbn in E. lia. }
      assert (length gl = pivot - 1) as Lgl.
      { apply (f_equal (@length _)) in Egl. rewrite firstn_length, app_length in Egl. cbn in Egl. lia. }
      assert (nprod g <> 1) as Hg.
      { replace (nprod g) with (nth (pivot - 1) (bshape t) 0); [exact Hl|].
        rewrite <- (firstn_skipn pivot (bshape t)), El, app_nth1 by (rewrite Egl, map_length, app_length; cbn; lia).
        rewrite Egl, map_app, app_nth2 by (rewrite map_length; lia). rewrite map_length. replace (pivot - 1 - length gl) with 0 by lia. reflexivity. }
      assert (length dl <= length (concat (firstn pivot gs))) as Hle.
      { unfold dl. rewrite gather_length. apply (Short _ _ Fg).
        - intros E. rewrite Egl, concat_app in E. apply app_eq_nil in E as [_ E]. cbn in E. rewrite app_nil_r in E. apply (Ng g); [|exact E].
          rewrite <- (firstn_skipn pivot gs), Egl. apply in_or_app. left. apply in_or_app. right. left. reflexivity.
        - rewrite nprod_concat, El. reflexivity. }
      destruct (firstn_app_le Fd Fg Hle) as (x & X1 & X2).
      assert (forall d, In d (flat_dims t) -> 0 < d) as FP by apply flat_pos.
      assert (nprod dl = nprod left) as Ndl.
      { rewrite (wf_shape Wm), (m_shape Wm Eo) in D5. injection D5 as D5 _. rewrite <- D5.
        pose proof (m_groups Wm Eo) as MG. rewrite Eo in MG. cbn [map] in MG. injection MG as MG _. rewrite <- MG.
        rewrite (wf_dims Wm). unfold dl, edims. rewrite D2. reflexivity. }
      assert (forall d, In d x -> d = 1) as Ones.
      { apply nprod_one; [intros d Hx; apply FP; rewrite Fg, X1; apply in_or_app; left; apply in_or_app; right; exact Hx|].
        assert (nprod left = nprod (dl ++ x)) as E by (rewrite <- X1, nprod_concat, El; reflexivity). rewrite nprod_app, Ndl in E.
        assert (0 < nprod left) by (rewrite <- Ndl; apply nprod_pos; intros d Hx; apply FP; rewrite Fd; apply in_or_app; left; exact Hx).
        apply (Nat.mul_cancel_l _ _ (nprod left)); lia. }
      assert (0 < length g) as Lg0.
      { assert (g <> []) by (apply Ng; rewrite <- (firstn_skipn pivot gs), Egl; apply in_or_app; left; apply in_or_app; right; left; reflexivity). destruct g; [congruence | cbn; lia]. }
      assert (length x < length g) as Lxg.
      { destruct (Nat.lt_ge_cases (length x) (length g)) as [|Hge]; [assumption|]. exfalso. apply Hg, nprod_ones. intros d Hx. apply Ones.
        rewrite Egl, concat_app in X1. cbn [concat] in X1. rewrite app_nil_r in X1.
        assert (g = skipn (length x - length g) x) as Ex.
        { apply (f_equal (skipn (length (concat gl)))) in X1. rewrite skipn_app, Nat.sub_diag, skipn_all in X1. cbn [skipn app] in X1.
          assert (length (concat gl) >= length dl).
          { apply (f_equal (@length nat)) in X1. rewrite skipn_length, app_length in X1. lia. }
          assert (length (concat gl) - length dl = length x - length g) as En by (apply (f_equal (@length nat)) in X1; rewrite skipn_length, app_length in X1; lia).
          rewrite skipn_app, (skipn_all2 dl), En in X1 by lia. exact X1. }
        rewrite Ex in Hx.
        rewrite <- (firstn_skipn (length x - length g) x). apply in_or_app. right. exact Hx. }
      rewrite Egl in X1. destruct (ones_between X1 Lxg) as (g1 & G1 & G2 & G3).
      assert (groupable left dl) as GL.
      { exists (gl ++ [g1]). rewrite concat_app, map_app. cbn [concat map]. rewrite app_nil_r, El, Egl, map_app. cbn [map].
        split; [symmetry; exact G2|]. split; [rewrite G3, nprod_app, (nprod_ones Ones), Nat.mul_1_r; reflexivity|].
        intros z Hz. apply in_app_or in Hz as [Hz|[<-|[]]]; [|exact G1]. apply Ng. rewrite <- (firstn_skipn pivot gs), Egl. apply in_or_app. left. apply in_or_app. left. exact Hz. }
      assert (groupable right dr) as GR.
      { rewrite Er, X2. destruct (skipn pivot gs) as [|h hs] eqn:Eh; [exfalso; apply left_ne; rewrite Er; reflexivity|].
        exists ((x ++ h) :: hs). cbn [concat map]. rewrite nprod_app, (nprod_ones Ones), Nat.mul_1_l. split; [symmetry; apply app_assoc|]. split; [reflexivity|].
        intros z [<-|Hz].
        - intros E. apply app_eq_nil in E as [_ E]. apply (Ng h); [|exact E]. rewrite <- (firstn_skipn pivot gs), Eh. apply in_or_app. right. left. reflexivity.
        - apply Ng. rewrite <- (firstn_skipn pivot gs), Eh. apply in_or_app. right. right. exact Hz. }
      rewrite D2 in B2, B6.
      assert (0 < bdim q) as PD by (rewrite bdim_rep, Lq; destruct s; [congruence | cbn; lia]).
      assert (flat_dims U = dl ++ [bdim q]) as FU.
      { unfold flat_dims. rewrite (wf_dims WU), (edims_bond B2 (or_introl eq_refl)), EU. cbn [concat app]. rewrite gather_app, gather_shift by (symmetry; apply gather_length). reflexivity. }
      assert (flat_dims V = [bdim q] ++ dr) as FV.
      { unfold flat_dims. rewrite (wf_dims WV), (edims_bond B6 (or_introl eq_refl)), EV. cbn [concat]. rewrite app_nil_r. rewrite gather_app, gather_shift by (symmetry; apply gather_length). reflexivity. }
      destruct (@breshape_complete G K U (left ++ [bdim q]) WU) as [U' EU'].
      { intros d. rewrite FU. intros Hin. apply in_app_or in Hin as [Hin|[<-|[]]]; [|exact PD]. apply FP. rewrite Fd. apply in_or_app. left. exact Hin. }
      { rewrite FU. apply groupable_app; [exact GL | apply groupable_one]. }
      destruct (@breshape_complete G K V (bdim q :: right) WV) as [V' EV'].
      { intros d. rewrite FV. intros Hin. apply in_app_or in Hin as [[<-|[]]|Hin]; [exact PD|]. apply FP. rewrite Fd. apply in_or_app. right. exact Hin. }
      { rewrite FV. apply (@groupable_app [bdim q]); [apply groupable_one | exact GR]. }
      exists U', V'. split; assumption.
  Qed.

  Lemma can_matrix : exists m, breshape t [nprod left; nprod right] = Ok m.
  Proof.
      apply breshape_complete; [exact W | apply flat_pos |].
      set (gs := map (gather 0 (edims t)) (bord t)).
      assert (flat_dims t = concat gs) as Ef by (unfold flat_dims; rewrite (wf_dims W), gather_concat; reflexivity).
      assert (map nprod gs = bshape t) as Eg by (unfold gs, bshape; rewrite map_map; reflexivity).
      assert (length gs = length (bshape t)) as Lg by (rewrite <- Eg, map_length; reflexivity).
      assert (forall g, In g gs -> g <> []) as Ng.
      { intros g Hg. apply in_map_iff in Hg as (o & <- & Ho). destruct W as (_ & _ & _ & _ & W'). specialize (W' o Ho). destruct o; [congruence | discriminate]. }
      assert (forall l : list (list nat), l <> [] -> (forall g, In g l -> g <> []) -> concat l <> []) as Nc.
      { intros [|g l] H1 H2 E; [congruence|]. cbn in E. apply app_eq_nil in E as [E _]. apply (H2 g); [left; reflexivity | exact E]. }
      exists [concat (firstn pivot gs); concat (skipn pivot gs)]. split; [|split].
      - cbn [concat]. rewrite app_nil_r, <- concat_app, firstn_skipn. symmetry; exact Ef.
      - cbn [map]. rewrite !nprod_concat, <- firstn_map, <- skipn_map, Eg. reflexivity.
      - intros g [<-|[<-|[]]]; apply Nc.
        + intros E. apply (f_equal (@length _)) in E. rewrite firstn_length in E. cbn in E. lia.
        + intros z Hz. apply Ng. rewrite <- (firstn_skipn pivot gs). apply in_or_app. left. exact Hz.
        + intros E. apply (f_equal (@length _)) in E. rewrite skipn_length in E. cbn in E. lia.
        + intros z Hz. apply Ng. rewrite <- (firstn_skipn pivot gs). apply in_or_app. right. exact Hz.
  Qed.

  (** and they do succeed *)
  Theorem tensor_svd_total : allowed (elegs t) <> [] ->
    exists Uf sf qf Vf qd0,
      (forall relative, sym_svd lim blim junk np_svd t pivot None None relative = Ok (Uf, (sf, qf), Vf, ([], qd0))) /\ sf <> [] /\
      forall maxsv err relative, trunc_args sf maxsv err relative ->
        (exists l kept rest, Permutation l sf /\ StronglySorted Rge l /\ truncate l maxsv err relative = Ok (kept, rest) /\ kept <> []) ->
        exists r, sym_svd lim blim junk np_svd t pivot maxsv err relative = Ok r.
  Proof.
    intros Ha.
    destruct can_matrix as [m Em].
    unfold sym_svd. rewrite Em. cbn [rbind].
    destruct (as_matrix Em) as (Wm & D1 & D2 & D3 & D4 & D5 & (o0 & o1 & Eo & Cm) & D6).
    destruct (@matrix_svd G K lim blim junk lim_pos np_svd inj m o0 o1 Wm Eo Cm) as (Uf & sf & qf & Vf & qd0 & R1 & R2 & R3 & R4 & R5 & R6 & R6' & R7).
    assert (sf <> []) as Ns by (apply R6'; unfold elegs; rewrite D2, D3; exact Ha).
    rewrite D5 in R6. destruct R6 as (S1 & S2 & R6). cbn [firstn skipn] in S1, S2, R6.
    destruct (can_reshape Em Eo R3 R4 R5 S1 S2 Ns) as (U' & V' & EU & EV).
    exists U', sf, qf, V', qd0. split; [|split; [exact Ns|]].
    - intros relative. rewrite R1. cbn [rbind fst snd]. rewrite EU. cbn [rbind]. rewrite EV. reflexivity.
    - intros maxsv err relative TA (l & kept & rest & Pl & Sl & Et & Nk).
      destruct (R7 maxsv err relative TA) as (U2 & s2 & q2 & V2 & sd2 & qd2 & T1 & T2 & T3 & T4 & T5 & T6 & T7).
      destruct (mat_shapes D5 T7) as [Q1 Q2].
      assert (s2 <> []) as N2.
      { destruct (T6 l Pl Sl) as (kept' & rest' & Et' & P1 & _). rewrite Et in Et'. injection Et' as <- <-. intros ->. apply Permutation_nil in P1. congruence. }
      destruct (can_reshape Em Eo T3 T4 T5 Q1 Q2 N2) as (U2' & V2' & EU2 & EV2).
      rewrite T1. cbn [rbind fst snd]. rewrite EU2. cbn [rbind]. rewrite EV2. cbn [rbind]. eexists. reflexivity.
  Qed.
End Tensor.
