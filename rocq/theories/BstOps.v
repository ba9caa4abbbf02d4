(** * BstOps: reshaping, sums and scalar operations of block-sparse tensors *)
From Coq Require Import Permutation.
From Verif Require Import Prelude Algebra Tensor TensorFacts Res Charge ChargeFacts BlockSparse BlockSpec BstSpec ListFacts BlockFacts BlockDegen BlockReduce BlockMaps BlockTr BlockPart BstFacts BstConv BstDot.
Set Implicit Arguments.
Unset Strict Implicit.

(** ** Greedy partitions *)
Lemma cumprod_from_length a l : length (cumprod_from a l) = length l.
Proof. revert a. induction l as [|x l IH]; intros a; cbn; [reflexivity|]. rewrite IH. reflexivity. Qed.
Lemma nth_cumprod a l k : k < length l -> nth k (cumprod_from a l) 0 = a * nprod (firstn (S k) l).
Proof.
  revert a k. induction l as [|x l IH]; intros a k Hk; [cbn in Hk; lia|]. destruct k as [|k].
  - cbn. lia.
  - change (nth k (cumprod_from (a * x) l) 0 = a * nprod (x :: firstn (S k) l)). rewrite IH by (cbn in Hk; lia).
    change (nprod (x :: firstn (S k) l)) with (x * nprod (firstn (S k) l)). lia.
Qed.
Lemma flatnonzero_first bs k r : flatnonzero bs = k :: r -> forall j, nth j bs false = true -> j < length bs -> k <= j.
Proof.
  revert k r. induction bs as [|b bs IH]; intros k r H j Hj Hl; [cbn in Hl; lia|].
  rewrite flatnonzero_cons in H. destruct b; [injection H as <- _; lia|]. cbn [app] in H.
  destruct (flatnonzero bs) as [|k' r'] eqn:E; [discriminate|]. cbn [map] in H. injection H as <- _.
  destruct j as [|j]; [discriminate|]. cbn in Hj, Hl. specialize (IH _ _ eq_refl j Hj ltac:(lia)). lia.
Qed.
Lemma prefix_found l ns : match flatnonzero (map (fun x => x =? ns) (cumprod_from 1 l)) with
  | [] => forall k, k < length l -> nprod (firstn (S k) l) <> ns
  | k :: _ => k < length l /\ nprod (firstn (S k) l) = ns /\ (forall j, j < length l -> nprod (firstn (S j) l) = ns -> k <= j)
  end.
Proof.
  assert (forall j, j < length l -> nth j (map (fun x => x =? ns) (cumprod_from 1 l)) false = (nprod (firstn (S j) l) =? ns)) as Hn.
  { intros j Hj. rewrite (@nth_map_lt _ _ _ _ _ _ 0) by (rewrite cumprod_from_length; exact Hj). rewrite nth_cumprod, Nat.mul_1_l by exact Hj. reflexivity. }
  destruct (flatnonzero _) as [|k r] eqn:E.
  - intros k Hk Ek. assert (In k (flatnonzero (map (fun x => x =? ns) (cumprod_from 1 l)))) as H.
    { apply In_flatnonzero. rewrite map_length, cumprod_from_length. split; [exact Hk|]. rewrite Hn by exact Hk. apply Nat.eqb_eq, Ek. }
    rewrite E in H. exact H.
  - assert (In k (flatnonzero (map (fun x => x =? ns) (cumprod_from 1 l)))) as H by (rewrite E; left; reflexivity).
    apply In_flatnonzero in H. rewrite map_length, cumprod_from_length in H. destruct H as [Hk Ek]. rewrite Hn in Ek by exact Hk.
    split; [exact Hk|]. split; [apply Nat.eqb_eq, Ek|]. intros j Hj Ej. apply (@flatnonzero_first _ _ _ E).
    + rewrite Hn by exact Hj. apply Nat.eqb_eq, Ej.
    + rewrite map_length, cumprod_from_length. exact Hj.
Qed.

Lemma partitions_sound ns : forall l ps rest, partitions ns l = Ok (ps, rest) ->
  exists gs, concat gs ++ rest = l /\ map nprod gs = ns /\ map (@length nat) gs = ps /\ (forall g, In g gs -> g <> []).
Proof.
  induction ns as [|n ns IH]; intros l ps rest H; cbn [partitions] in H.
  - injection H as <- <-. exists []. split; [reflexivity|]. split; [reflexivity|]. split; [reflexivity|]. intros g [].
  - pose proof (prefix_found l n) as P. destruct (flatnonzero _) as [|k r]; [discriminate|]. destruct P as (Hk & Ek & _).
    destruct (partitions ns (skipn (k + 1) l)) as [[ps' rest']| |] eqn:E; try discriminate. cbn [rbind fst snd] in H. injection H as <- <-.
    destruct (IH _ _ _ E) as (gs & E1 & E2 & E3 & E4). exists (firstn (S k) l :: gs). split; [|split; [|split]].
    + cbn [concat]. rewrite <- app_assoc, E1, Nat.add_1_r. apply firstn_skipn.
    + cbn [map]. rewrite Ek, E2. reflexivity.
    + cbn [map]. rewrite firstn_length, E3. f_equal. lia.
    + intros g [<-|Hg]; [|apply E4, Hg]. intros E0. apply (f_equal (@length _)) in E0. rewrite firstn_length in E0. change (length (@nil nat)) with 0 in E0. lia.
Qed.

Lemma nprod_cons x l : nprod (x :: l) = x * nprod l.
Proof. reflexivity. Qed.
Lemma nprod_pos l : (forall d, In d l -> 0 < d) -> 0 < nprod l.
Proof.
  induction l as [|x l IH]; intros H; [cbn; lia|]. rewrite nprod_cons. assert (0 < x) by (apply H; left; reflexivity).
  assert (0 < nprod l) by (apply IH; intros; apply H; right; assumption). nia.
Qed.
Lemma nprod_one l : (forall d, In d l -> 0 < d) -> nprod l = 1 -> forall d, In d l -> d = 1.
Proof.
  induction l as [|x l IH]; intros H E d Hd; [destruct Hd|]. rewrite nprod_cons in E. apply Nat.eq_mul_1 in E. destruct E as [E1 E2].
  destruct Hd as [<-|Hd]; [exact E1|]. apply IH; [intros; apply H; right; assumption | exact E2 | exact Hd].
Qed.
Lemma nprod_ones l : (forall d, In d l -> d = 1) -> nprod l = 1.
Proof. induction l as [|x l IH]; intros H; [reflexivity|]. rewrite nprod_cons, IH by (intros; apply H; right; assumption). rewrite (H x) by (left; reflexivity). reflexivity. Qed.

Lemma partitions_complete ns : forall l, (forall d, In d l -> 0 < d) -> groupable ns l ->
  exists ps rest, partitions ns l = Ok (ps, rest) /\ (forall d, In d rest -> d = 1).
Proof.
  assert (forall ns l, ns <> [] -> (forall d, In d l -> 0 < d) -> groupable ns l ->
    exists ps rest, partitions ns l = Ok (ps, rest) /\ (forall d, In d rest -> d = 1)) as Main.
  { clear ns. induction ns as [|n ns IH]; intros l Hne Hpos (gs & E1 & E2 & E3); [congruence|].
    destruct gs as [|g gs]; [discriminate|]. cbn [map] in E2. injection E2 as En Ens. cbn [concat] in E1. subst l.
    assert (g <> []) as Hg by (apply E3; left; reflexivity). cbn [partitions].
    pose proof (prefix_found (g ++ concat gs) n) as P.
    assert (0 < length g) as Lg by (destruct g; [congruence | cbn; lia]).
    assert (forall d, In d g -> 0 < d) as Hpg by (intros d Hd; apply Hpos, in_or_app; left; exact Hd).
    destruct (flatnonzero _) as [|k r].
    { exfalso. apply (P (length g - 1)); [rewrite app_length; lia|]. replace (S (length g - 1)) with (length g) by lia.
      rewrite firstn_app, Nat.sub_diag, firstn_all, app_nil_r. exact En. }
    destruct P as (Hk & Ek & Hmin).
    assert (k < length g) as Hkg.
    { specialize (Hmin (length g - 1)). rewrite app_length in Hmin. assert (k <= length g - 1); [|lia]. apply Hmin; [lia|].
      replace (S (length g - 1)) with (length g) by lia. rewrite firstn_app, Nat.sub_diag, firstn_all, app_nil_r. exact En. }
    rewrite firstn_app in Ek. replace (S k - length g) with 0 in Ek by lia. rewrite app_nil_r in Ek.
    assert (forall d, In d (skipn (S k) g) -> d = 1) as Hones.
    { apply nprod_one; [intros d Hd; apply Hpg; rewrite <- (firstn_skipn (S k) g); apply in_or_app; right; exact Hd|].
      rewrite <- (firstn_skipn (S k) g), nprod_app, Ek in En. assert (0 < n).
      { rewrite <- Ek. apply nprod_pos. intros d Hd. apply Hpg. rewrite <- (firstn_skipn (S k) g). apply in_or_app. left. exact Hd. }
      apply (Nat.mul_cancel_l _ _ n); lia. }
    rewrite Nat.add_1_r, skipn_app. replace (S k - length g) with 0 by lia. change (skipn 0 (concat gs)) with (concat gs).
    destruct ns as [|n' ns'].
    - destruct gs; [|discriminate]. cbn [partitions rbind fst snd concat]. rewrite app_nil_r. eexists _, _. split; [reflexivity | exact Hones].
    - destruct (IH (skipn (S k) g ++ concat gs)) as (ps & rest & E & Hr).
      + discriminate.
      + intros d Hd. apply in_app_or in Hd. destruct Hd as [Hd|Hd]; [|apply Hpos, in_or_app; right; exact Hd].
        rewrite (Hones d Hd). lia.
      + destruct gs as [|g' gs']; [discriminate|]. exists ((skipn (S k) g ++ g') :: gs'). split; [cbn [concat]; rewrite app_assoc; reflexivity|]. split.
        * cbn [map] in *. rewrite nprod_app, (nprod_ones Hones), Nat.mul_1_l. exact Ens.
        * intros x [<-|Hx]; [|apply E3; right; right; exact Hx]. intros E0. apply app_eq_nil in E0. apply (E3 g'); [right; left; reflexivity | apply E0].
      + rewrite E. cbn [rbind fst snd]. eexists _, _. split; [reflexivity | exact Hr]. }
  intros l Hpos Hg. destruct ns as [|n ns]; [|apply Main; [discriminate | assumption | assumption]].
  destruct Hg as (gs & E1 & E2 & _). destruct gs; [|discriminate]. cbn in E1. subst l. exists [], []. split; [reflexivity|]. intros d [].
Qed.

Lemma split_lens_concat A (gs : list (list A)) : split_lens (map (@length A) gs) (concat gs) = gs.
Proof.
  induction gs as [|g gs IH]; [reflexivity|]. cbn [map concat split_lens]. rewrite firstn_app, Nat.sub_diag, firstn_all, app_nil_r.
  rewrite skipn_app, Nat.sub_diag, skipn_all. cbn [skipn app]. rewrite IH. reflexivity.
Qed.
Lemma split_lens_map A B (f : A -> B) lens : forall l, map (map f) (split_lens lens l) = split_lens lens (map f l).
Proof. induction lens as [|n r IH]; intros l; [reflexivity|]. cbn [split_lens map]. rewrite IH, firstn_map, skipn_map. reflexivity. Qed.
Lemma concat_split_lens A lens : forall l : list A, list_sum lens = length l -> concat (split_lens lens l) = l.
Proof.
  induction lens as [|n r IH]; intros l H; [destruct l; [reflexivity | discriminate]|]. cbn [split_lens concat].
  change (list_sum (n :: r)) with (n + list_sum r) in H. rewrite IH by (rewrite skipn_length; lia). apply firstn_skipn.
Qed.
Lemma grouping_eq A (x y : list (list A)) : map (@length A) x = map (@length A) y -> concat x = concat y -> x = y.
Proof. intros H1 H2. rewrite <- (split_lens_concat x), H1, H2. apply split_lens_concat. Qed.
Lemma length_split_lens A lens : forall l : list A, list_sum lens = length l -> map (@length A) (split_lens lens l) = lens.
Proof.
  induction lens as [|n r IH]; intros l H; [reflexivity|]. cbn [split_lens map]. change (list_sum (n :: r)) with (n + list_sum r) in H.
  rewrite IH by (rewrite skipn_length; lia). rewrite firstn_length. f_equal. lia.
Qed.

Lemma add_last_groups (gs : list (list nat)) rest : gs <> [] -> (forall g, In g gs -> g <> []) -> (forall d, In d rest -> d = 1) ->
  exists gs', concat gs' = concat gs ++ rest /\ map nprod gs' = map nprod gs /\
    map (@length nat) gs' = add_last (length rest) (map (@length nat) gs) /\ (forall g, In g gs' -> g <> []).
Proof.
  intros Hne Hg Hr. destruct (exists_last Hne) as (gs0 & g & ->). exists (gs0 ++ [g ++ rest]).
  split; [rewrite !concat_app; cbn [concat]; rewrite !app_nil_r, app_assoc; reflexivity|].
  split; [rewrite !map_app; cbn [map]; rewrite nprod_app, (nprod_ones Hr), Nat.mul_1_r; reflexivity|]. split.
  - rewrite !map_app. cbn [map]. unfold add_last. rewrite rev_app_distr. cbn [rev app]. rewrite rev_involutive, app_length. reflexivity.
  - intros x Hx. apply in_app_or in Hx. destruct Hx as [Hx|[<-|[]]]; [apply Hg, in_or_app; left; exact Hx|].
    intros E. apply app_eq_nil in E. apply (Hg g); [apply in_or_app; right; left; reflexivity | apply E].
Qed.

Section Ops.
  Context {G : chg} {K : csr}.
  Notation bst := (bst G K).
  Implicit Types (t u : bst) (ls : list (leg G)).

  Lemma wf_groupable t : wf_bst t -> groupable (bshape t) (flat_dims t).
  Proof.
    intros W. exists (map (gather 0 (ldims (elegs t))) (bord t)). split; [symmetry; apply gather_concat|]. split.
    - rewrite (wf_shape W). reflexivity.
    - intros g Hg. apply in_map_iff in Hg. destruct Hg as (o & <- & Ho). destruct W as (_ & _ & _ & _ & W). specialize (W o Ho).
      destruct o; [congruence | discriminate].
  Qed.

  Lemma breshape_sound t ns u : wf_bst t -> (ns = [] -> bord t = []) -> breshape t ns = Ok u ->
    wf_bst u /\ bdata u = bdata t /\ bcs u = bcs t /\ bfs u = bfs t /\ concat (bord u) = concat (bord t) /\ bshape u = ns /\
    groupable ns (flat_dims t) /\ teq (dense_of u) (reshape (dense_of t) ns).
  Proof.
    intros W Hns H. unfold breshape in H. destruct (leqb Nat.eq_dec ns (bshape t)) eqn:El.
    { apply leqb_true in El. injection H as <-. subst ns. split; [exact W|]. do 5 (split; [reflexivity|]). split; [apply wf_groupable, W|].
      rewrite (wf_shape W). apply teq_sym, reshape_id. }
    destruct (Nat.eqb_spec (nprod ns) (nprod (bshape t))) as [Ep|]; [|discriminate]. unfold flat_order in H.
    rewrite <- (wf_dims W) in H. fold (flat_dims t) in H.
    destruct (length (bcs t) <? length ns); [discriminate|]. destruct (existsb _ (flat_dims t)); [discriminate|].
    destruct (partitions ns (flat_dims t)) as [[ps rest]| |] eqn:E; try discriminate. cbn [rbind fst snd] in H.
    destruct (forallb (fun d => d =? 1) rest) eqn:E1; [|discriminate]. injection H as <-.
    rewrite forallb_forall in E1. assert (forall d, In d rest -> d = 1) as Hr by (intros d Hd; apply Nat.eqb_eq, E1, Hd).
    destruct (partitions_sound E) as (gs & G1 & G2 & G3 & G4).
    assert (ns <> []) as Nns.
    { intros ->. specialize (Hns eq_refl). apply Bool.not_true_iff_false in El. apply El, leqb_true. unfold bshape. rewrite Hns. reflexivity. }
    assert (gs <> []) as Ngs by (intros ->; apply Nns; rewrite <- G2; reflexivity).
    destruct (add_last_groups Ngs G4 Hr) as (gs' & H1 & H2 & H3 & H4). rewrite G3 in H3. rewrite G1 in H1. rewrite G2 in H2.
    rewrite <- H3. set (o' := split_lens _ _).
    assert (list_sum (map (@length nat) gs') = length (concat (bord t))) as Ls.
    { rewrite list_sum_lengths, H1. apply gather_length. }
    assert (concat o' = concat (bord t)) as Hc by (apply concat_split_lens, Ls).
    assert (map (gather 0 (ldims (elegs t))) o' = gs') as Hgs.
    { transitivity (split_lens (map (@length nat) gs') (flat_dims t)); [apply (split_lens_map (fun i => nth i (ldims (elegs t)) 0))|].
      rewrite <- H1. apply split_lens_concat. }
    assert (forall o, In o o' -> o <> []) as Ho.
    { intros o Hin. pose proof (in_map (gather 0 (ldims (elegs t))) _ _ Hin) as Hm. rewrite Hgs in Hm. apply H4 in Hm. intros ->. apply Hm. reflexivity. }
    set (u := BST (bdata t) (bcs t) (bfs t) o').
    assert (elegs u = elegs t) as Eu by reflexivity.
    assert (wf_bst u) as Wu.
    { destruct W as (X1 & X2 & X3 & X4 & X5). unfold wf_bst. rewrite Eu. unfold u. cbn [bcs bfs bdata bord]. rewrite Hc. repeat apply conj; assumption. }
    assert (shape (dense_of u) = ns) as Es.
    { rewrite dense_shape, Eu. unfold u. cbn [bord]. rewrite Hgs. exact H2. }
    split; [exact Wu|]. do 3 (split; [reflexivity|]). split; [exact Hc|]. split; [rewrite (wf_shape Wu); exact Es|].
    split; [exists gs'; auto|]. split; [exact Es|]. rewrite Es. intros I HI. cbn [reshape elt]. rewrite !dense_elt, Eu. unfold u at 1 2 3. cbn [bord bdata]. rewrite Hgs, Hc. do 2 f_equal.
    rewrite <- unravel_split_index by (rewrite H2; exact HI). rewrite H1, H2. rewrite dense_shape.
    set (gs0 := map (gather 0 (ldims (elegs t))) (bord t)).
    assert (flat_dims t = concat gs0) as Ef by apply gather_concat.
    assert (ravel ns I < nprod (map nprod gs0)) as Hlt.
    { rewrite <- nprod_concat, <- Ef, <- H1, nprod_concat, H2. apply ravel_lt, HI. }
    rewrite <- unravel_split_index by (apply unravel_valid, Hlt). rewrite ravel_unravel by exact Hlt. rewrite Ef. reflexivity.
  Qed.

  Lemma breshape_complete t ns : wf_bst t -> (forall d, In d (flat_dims t) -> 0 < d) -> groupable ns (flat_dims t) -> exists u, breshape t ns = Ok u.
  Proof.
    intros W Hpos Hg. unfold breshape. destruct (leqb Nat.eq_dec ns (bshape t)); [eexists; reflexivity|].
    assert (nprod ns = nprod (bshape t)) as Ep.
    { destruct Hg as (gs & E1 & E2 & _). rewrite <- E2, <- nprod_concat, E1, (wf_nprod W). apply nprod_perm. unfold flat_dims.
      rewrite <- (gather_seq 0 (ldims (elegs t))) at 2. apply Permutation_map. rewrite (wf_dims_length W). apply wf_perm, W. }
    rewrite Ep, Nat.eqb_refl. unfold flat_order. rewrite <- (wf_dims W). fold (flat_dims t).
    assert (length ns <= length (bcs t)) as Hl.
    { destruct Hg as (gs & E1 & E2 & E3). rewrite <- E2, map_length.
      assert (length (flat_dims t) = length (bcs t)) as <- by (unfold flat_dims; rewrite gather_length; apply is_perm_length, wf_perm, W).
      rewrite <- E1. clear - E3. induction gs as [|g gs IH]; [cbn; lia|]. cbn [concat]. rewrite app_length. cbn [length].
      assert (length g <> 0) by (intros E; apply (E3 g); [left; reflexivity | apply length_zero_iff_nil, E]).
      assert (length gs <= length (concat gs)) by (apply IH; intros x Hx; apply E3; right; exact Hx). lia. }
    apply Nat.ltb_ge in Hl. rewrite Hl.
    assert (existsb (fun d => d =? 0) (flat_dims t) = false) as ->.
    { apply not_true_is_false. intros E. apply existsb_exists in E. destruct E as (d & Hd & Ed). apply Nat.eqb_eq in Ed. specialize (Hpos d Hd). lia. }
    destruct (partitions_complete Hpos Hg) as (ps & rest & E & Hr). rewrite E. cbn [rbind fst snd].
    assert (forallb (fun d => d =? 1) rest = true) as ->; [|eexists; reflexivity].
    apply forallb_forall. intros d Hd. apply Nat.eqb_eq, Hr, Hd.
  Qed.

  (** ** Entrywise operations *)
  Lemma entry_map (f : K -> K) ls data ix : f r0 = r0 -> entry ls (map f data) ix = f (entry ls data ix).
  Proof.
    intros Hf. unfold entry. destruct (qdec _ _) as [_|_]; [|symmetry; exact Hf]. rewrite <- Hf at 1. apply map_nth.
  Qed.
  Lemma bmap_spec (f : K -> K) t : wf_bst t -> f r0 = r0 ->
    wf_bst (bmap f t) /\ teq (dense_of (bmap f t)) (Tensor (shape (dense_of t)) (fun I => f (elt (dense_of t) I))).
  Proof.
    intros (W1 & W2 & W3 & W4 & W5) Hf. split.
    - unfold wf_bst, bmap, elegs. cbn [bcs bfs bdata bord]. rewrite map_length. repeat apply conj; assumption.
    - split; [reflexivity|]. intros I HI. cbn [elt]. rewrite !dense_elt. unfold bmap at 1 2 3. unfold elegs. cbn [bcs bfs bdata bord]. apply entry_map, Hf.
  Qed.

  Lemma bconj_spec (f : K -> K) t : wf_bst t -> f r0 = r0 ->
    wf_bst (bconj f t) /\ teq (dense_of (bconj f t)) (Tensor (shape (dense_of t)) (fun I => f (elt (dense_of t) I))).
  Proof.
    intros (W1 & W2 & W3 & W4 & W5) Hf.
    assert (elegs (bconj f t) = map flip (elegs t)) as El by apply legs_negb.
    assert (allowed (map flip (elegs t)) = allowed (elegs t)) as Ea by (unfold allowed; rewrite sector_flip, qinv_id; reflexivity).
    split.
    - unfold wf_bst. rewrite El, Ea. unfold bconj. cbn [bcs bfs bdata bord]. rewrite !map_length. repeat apply conj; assumption.
    - split; [unfold dense_of; cbn [shape]; rewrite El, ldims_flip; reflexivity|]. intros I HI. cbn [elt]. rewrite !dense_elt, El, ldims_flip.
      unfold bconj. cbn [bdata bord]. rewrite entry_map by exact Hf. f_equal. unfold entry, pos. rewrite Ea.
      set (ix := unperm _ _ _).
      destruct (qdec (charge_of (map flip (elegs t)) ix) qid) as [E|N], (qdec (charge_of (elegs t) ix) qid) as [E'|N']; try reflexivity; exfalso;
        rewrite charge_of_flip in *.
      + apply N'. rewrite <- (qinv_inv (charge_of (elegs t) ix)), E. apply qinv_id.
      + apply N. rewrite E'. apply qinv_id.
  Qed.

  (** ** Sums of tensors stored in different orders *)
  Lemma index_eq_legs (i j : index (G := G)) : index_eq i j = true -> length (fst i) = length (snd i) ->
    legs (fst i) (snd i) = legs (fst j) (snd j) /\ length (fst i) = length (fst j).
  Proof.
    unfold index_eq. rewrite !andb_true_iff. intros [[H1 H2] H3] Hl. apply Nat.eqb_eq in H1. apply leqb_true in H3.
    destruct i as [ci fi], j as [cj fj]. cbn [fst snd] in *. subst fj. split; [|exact H1]. unfold legs. f_equal.
    clear Hl. revert cj H1 H2. induction ci as [|c ci IH]; intros [|d cj] H1 H2; try discriminate; [reflexivity|].
    cbn [combine forallb] in H2. apply andb_true_iff in H2. destruct H2 as [H2 H4]. cbn [map]. cbn [length] in H1. rewrite (IH cj) by (lia || assumption). f_equal.
    apply andb_true_iff in H2. destruct H2 as [E1 E2]. cbn [fst snd] in E1, E2. apply leqb_true in E1. apply leqb_true in E2. rewrite !rep_uniques, E1, E2. reflexivity.
  Qed.

  Lemma protection_legs t u : wf_bst t -> wf_bst u -> protection t u = true ->
    length (bcs t) = length (bcs u) /\ map (@length nat) (bord t) = map (@length nat) (bord u) /\
    gather ([], false) (elegs t) (concat (bord t)) = gather ([], false) (elegs u) (concat (bord u)).
  Proof.
    intros Wt Wu. unfold protection. rewrite !andb_true_iff. intros [[H1 H2] H3]. apply leqb_true in H1. apply Nat.eqb_eq in H2.
    assert (length (bord t) = length (bord u)) as Hl by (apply (f_equal (@length nat)) in H1; unfold bshape in H1; rewrite !map_length in H1; exact H1).
    split; [exact H2|]. unfold sparse_shape in H3.
    assert (forall i, In i (concat (bord t)) -> i < length (bcs t)) as Bt by (intros i Hi; apply (@is_perm_In _ _ i (wf_perm Wt)), Hi).
    assert (forall i, In i (concat (bord u)) -> i < length (bcs u)) as Bu by (intros i Hi; apply (@is_perm_In _ _ i (wf_perm Wu)), Hi).
    pose proof (wf_len Wt) as Lt. pose proof (wf_len Wu) as Lu. unfold elegs. clear H1 H2 Wt Wu.
    revert Hl H3 Bt Bu. generalize (bord u). induction (bord t) as [|o r IH]; intros [|o' r'] Hl H3 Bt Bu; try discriminate; [split; reflexivity|].
    cbn [map combine forallb] in H3. apply andb_true_iff in H3. destruct H3 as [H3 H4]. cbn [fst snd] in H3. cbn [concat] in Bt, Bu.
    destruct (IH r') as [I1 I2]; [cbn in Hl; lia | exact H4 | intros i Hi; apply Bt, in_or_app; right; exact Hi | intros i Hi; apply Bu, in_or_app; right; exact Hi|].
    apply index_eq_legs in H3; [|cbn [fst snd]; rewrite !gather_length; reflexivity]. cbn [fst snd] in H3. rewrite !gather_length in H3. destruct H3 as [E1 E2].
    rewrite !legs_gather in E1; [|assumption | intros i Hi; apply Bu, in_or_app; left; exact Hi | assumption | intros i Hi; apply Bt, in_or_app; left; exact Hi].
    cbn [map concat]. rewrite I1, E2, !gather_app, I2, E1. split; reflexivity.
  Qed.

  Lemma scatter_unperm fu ft : is_perm (length ft) fu -> scatter (repeat 0 (length ft)) fu ft = unperm 0 fu ft.
  Proof.
    intros Hp. pose proof (is_perm_length Hp) as L. apply (@list_ext _ _ _ 0).
    - rewrite scatter_length, repeat_length, unperm_length. lia.
    - intros i Hi. rewrite scatter_length, repeat_length in Hi. rewrite nth_unperm by lia.
      assert (In i fu) as Hin by (apply (@is_perm_In _ _ i Hp), Hi).
      assert (nth (nindex i fu) fu 0 = i) as Hn by (apply nth_index_of, Hin). rewrite <- Hn at 1.
      apply scatter_nth; [apply (is_perm_NoDup Hp) | exact L | | rewrite L; rewrite <- L; apply index_of_lt, Hin].
      intros p Hpi. rewrite repeat_length. apply (@is_perm_In _ _ p Hp), Hpi.
  Qed.

  (** bringing a tensor into the storage order of another one *)
  Lemma relayout lim blim junk t u : 0 < lim -> wf_bst t -> wf_bst u -> length (bcs t) = length (bcs u) ->
    map (@length nat) (bord t) = map (@length nat) (bord u) ->
    gather ([], false) (elegs t) (concat (bord t)) = gather ([], false) (elegs u) (concat (bord u)) ->
    exists t', contiguous lim blim junk t (scatter (repeat 0 (length (concat (bord t)))) (concat (bord u)) (concat (bord t))) = Ok t' /\
      wf_bst t' /\ elegs t' = elegs u /\ bord t' = bord u /\ teq (dense_of t') (dense_of t).
  Proof.
    intros Hlim Wt Wu Hn Hb Hg. set (ft := concat (bord t)) in *. set (fu := concat (bord u)) in *.
    pose proof (wf_perm Wt) as Pt. fold ft in Pt. pose proof (wf_perm Wu) as Pu. fold fu in Pu. rewrite <- Hn in Pu.
    pose proof (is_perm_length Pt) as Lt. pose proof (is_perm_length Pu) as Lu.
    rewrite scatter_unperm by (rewrite Lt; exact Pu). set (perm := unperm 0 fu ft).
    assert (length perm = length (bcs t)) as Lp by (unfold perm; rewrite unperm_length; exact Lu).
    assert (gather 0 perm fu = ft) as Egf by (apply gather_unperm; rewrite Lt; exact Pu).
    assert (is_perm (length (bcs t)) perm) as Pp.
    { unfold is_perm. transitivity ft; [|exact Pt]. rewrite <- Egf. rewrite <- (gather_seq 0 perm) at 1. apply Permutation_map. rewrite Lp. symmetry. exact Pu. }
    destruct (@contiguous_spec G K lim blim junk Hlim t perm Wt Pp) as (t' & E & W' & C1 & C2 & C3 & _ & C5).
    exists t'. split; [exact E|]. split; [exact W'|].
    assert (forall i, In i perm -> i < length (bcs t)) as Bp by (intros i Hi; apply (@is_perm_In _ _ i Pp), Hi).
    split; [|split; [|exact C5]].
    - unfold elegs at 1. rewrite C1, C2, legs_gather; [|apply wf_len, Wt | exact Bp]. fold (elegs t).
      assert (length (gather ([], false) (elegs t) perm) = length (elegs u)) as Lg by (rewrite gather_length, Lp, Hn, (wf_legs_length Wu); reflexivity).
      rewrite <- (@unperm_gather _ ([], false) ([], false) fu (elegs u)) by (rewrite (wf_legs_length Wu), <- Hn; exact Pu).
      rewrite <- Hg. rewrite <- Egf.
      rewrite <- (@unperm_gather _ ([], false) ([], false) fu (gather ([], false) (elegs t) perm)) by (rewrite gather_length, Lp; exact Pu).
      f_equal. unfold gather. rewrite !map_map. apply map_ext_in. intros i Hi. apply (@is_perm_In _ _ i Pu) in Hi.
      rewrite (@nth_map_lt _ _ _ _ _ _ 0) by lia. reflexivity.
    - rewrite C3. apply grouping_eq.
      + rewrite map_map, <- Hb. apply map_ext. intros o. apply map_length.
      + rewrite <- concat_map. fold ft. fold fu. rewrite <- Egf. unfold gather. rewrite map_map. transitivity (map (fun i => i) fu); [|apply map_id].
        apply map_ext_in. intros i Hi. apply (@is_perm_In _ _ i Pu) in Hi. apply index_of_nth; [apply (is_perm_NoDup Pp) | lia].
  Qed.

  Lemma align_spec lim blim junk t u : 0 < lim -> wf_bst t -> wf_bst u -> protection t u = true ->
    exists t' u', align lim blim junk t u = Ok (t', u') /\ wf_bst t' /\ wf_bst u' /\ elegs t' = elegs u' /\ bord t' = bord u' /\
      teq (dense_of t') (dense_of t) /\ teq (dense_of u') (dense_of u).
  Proof.
    intros Hlim Wt Wu Hp. destruct (protection_legs Wt Wu Hp) as (Hn & Hb & Hg).
    assert (length (concat (bord t)) = length (concat (bord u))) as Hl by (rewrite <- !list_sum_lengths, Hb; reflexivity).
    unfold align, flat_order. cbv zeta.
    destruct (leqb Nat.eq_dec (concat (bord t)) (seq 0 (length (concat (bord t))))) eqn:Et, (leqb Nat.eq_dec (concat (bord u)) (seq 0 (length (concat (bord u))))) eqn:Eu; cbn [andb orb negb].
    - exists t, u. apply leqb_true in Et. apply leqb_true in Eu. split; [reflexivity|]. split; [exact Wt|]. split; [exact Wu|]. split; [|split; [|split; apply teq_refl]].
      + rewrite Et, Eu, Hl in Hg. pose proof (is_perm_length (wf_perm Wu)) as L. rewrite L in Hg.
        rewrite !gather_legs_seq in Hg; [exact Hg | rewrite (wf_legs_length Wu); reflexivity | rewrite (wf_legs_length Wt), Hn; reflexivity].
      + apply grouping_eq; [exact Hb|]. rewrite Et, Eu, Hl. reflexivity.
    - destruct (@relayout lim blim junk u t Hlim Wu Wt (eq_sym Hn) (eq_sym Hb) (eq_sym Hg)) as (u' & E & W & E1 & E2 & E3).
      rewrite E. cbn [rbind]. exists t, u'. split; [reflexivity|]. split; [exact Wt|]. split; [exact W|]. split; [symmetry; exact E1|]. split; [symmetry; exact E2|]. split; [apply teq_refl | exact E3].
    - destruct (@relayout lim blim junk t u Hlim Wt Wu Hn Hb Hg) as (t' & E & W & E1 & E2 & E3).
      rewrite E. cbn [rbind]. exists t', u. split; [reflexivity|]. split; [exact W|]. split; [exact Wu|]. split; [exact E1|]. split; [exact E2|]. split; [exact E3 | apply teq_refl].
    - destruct (@relayout lim blim junk t u Hlim Wt Wu Hn Hb Hg) as (t' & E & W & E1 & E2 & E3).
      rewrite E. cbn [rbind]. exists t', u. split; [reflexivity|]. split; [exact W|]. split; [exact Wu|]. split; [exact E1|]. split; [exact E2|]. split; [exact E3 | apply teq_refl].
  Qed.

  Lemma nth_zip (op : K -> K -> K) : op r0 r0 = r0 -> forall (x y : list K) n, length x = length y ->
    nth n (map (fun xy => op (fst xy) (snd xy)) (combine x y)) r0 = op (nth n x r0) (nth n y r0).
  Proof.
    intros Hop. induction x as [|a x IH]; intros [|b y] n H; try discriminate.
    - destruct n; symmetry; exact Hop.
    - destruct n as [|n]; [reflexivity|]. cbn [combine map nth]. apply IH. cbn in H. lia.
  Qed.

  Lemma bzip_spec lim blim junk (op : K -> K -> K) t u : 0 < lim -> wf_bst t -> wf_bst u -> protection t u = true -> op r0 r0 = r0 ->
    exists t' u' r, bzip lim blim junk op t u = Ok (t', u', r) /\ wf_bst t' /\ wf_bst u' /\ wf_bst r /\
      teq (dense_of t') (dense_of t) /\ teq (dense_of u') (dense_of u) /\
      teq (dense_of r) (Tensor (shape (dense_of t)) (fun I => op (elt (dense_of t) I) (elt (dense_of u) I))).
  Proof.
    intros Hlim Wt Wu Hp Hop. destruct (@align_spec lim blim junk t u Hlim Wt Wu Hp) as (t' & u' & E & Wt' & Wu' & El & Eb & Dt & Du).
    unfold bzip. rewrite Hp, E. cbn [rbind]. pose proof (wf_data Wt') as Lt. pose proof (wf_data Wu') as Lu. rewrite <- El in Lu.
    rewrite Lt, Lu, Nat.eqb_refl. eexists t', u', _. split; [reflexivity|]. split; [exact Wt'|]. split; [exact Wu'|]. set (r := BST _ _ _ _).
    assert (elegs r = elegs t') as Er by reflexivity. split; [|split; [exact Dt|split; [exact Du|]]].
    - destruct Wt' as (X1 & X2 & X3 & X4 & X5). unfold wf_bst. rewrite Er. unfold r. cbn [bcs bfs bdata bord]. repeat apply conj; try assumption.
      rewrite map_length, combine_length, Lt, Lu. apply Nat.min_id.
    - destruct Dt as [St Vt]. destruct Du as [Su Vu]. split; [rewrite dense_shape, Er; unfold r; cbn [bord shape]; rewrite <- dense_shape; exact St|].
      intros I HI. rewrite dense_shape, Er in HI. unfold r in HI. cbn [bord] in HI. rewrite <- dense_shape in HI.
      cbn [elt]. rewrite <- Vt by exact HI. rewrite <- Vu by (rewrite dense_shape, <- El, <- Eb, <- dense_shape; exact HI).
      rewrite !dense_elt, Er, <- El, <- Eb. unfold r. cbn [bord bdata]. unfold entry. destruct (qdec _ _) as [_|_]; [|symmetry; exact Hop].
      apply nth_zip; [exact Hop | congruence].
  Qed.
End Ops.
