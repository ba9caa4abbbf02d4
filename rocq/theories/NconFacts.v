(** * NconFacts: the tensor operations of Ncon.v compute partial Einstein sums. *)
From Coq Require Import ZArith Sorting.Sorted.
From Verif Require Import Prelude Algebra Tensor TensorFacts Einsum EinsumFacts NetworkFacts GraphRetail Ncon.
Set Implicit Arguments.
Unset Strict Implicit.
Open Scope list_scope.
Open Scope nat_scope.

(** ** Lists *)
Lemma zmem_In x l : zmem x l = true <-> In x l.
Proof.
  unfold zmem. rewrite existsb_exists. split.
  - intros (y & Hy & E). apply Z.eqb_eq in E. congruence.
  - intros H. exists x. split; [exact H | apply Z.eqb_refl].
Qed.
Lemma zmem_nIn x l : zmem x l = false <-> ~ In x l.
Proof. rewrite <- zmem_In. destruct (zmem x l); intuition congruence. Qed.
Lemma zmem_ext x l l' : (In x l <-> In x l') -> zmem x l = zmem x l'.
Proof.
  intros H. destruct (zmem x l) eqn:E, (zmem x l') eqn:E'; try reflexivity;
    rewrite ?zmem_In, ?zmem_nIn in *; tauto.
Qed.

Lemma map_filter A B (f : A -> B) (p : B -> bool) l :
  map f (filter (fun x => p (f x)) l) = filter p (map f l).
Proof. induction l as [|x r IH]; simpl; [reflexivity|]. destruct (p (f x)); simpl; congruence. Qed.

Lemma gather_filter A (d : A) (p : A -> bool) l :
  gather d l (filter (fun i => p (nth i l d)) (seq 0 (length l))) = filter p l.
Proof.
  unfold gather. rewrite (@map_filter _ _ (fun i => nth i l d)).
  f_equal. apply gather_seq.
Qed.

Lemma gather_seq_app A (d : A) l1 l2 : gather d (l1 ++ l2) (seq 0 (length l1)) = l1.
Proof.
  rewrite <- (gather_seq d l1) at 3. unfold gather.
  apply map_ext_in. intros i Hi. apply in_seq in Hi. apply app_nth1. lia.
Qed.

Lemma filter_In_ext A (p q : A -> bool) l :
  (forall x, In x l -> p x = q x) -> filter p l = filter q l.
Proof.
  induction l as [|x r IH]; simpl; intros H; [reflexivity|].
  rewrite (H x (or_introl eq_refl)), IH; [reflexivity|]. intros; apply H; right; assumption.
Qed.

Lemma free_labels_filter (ls : list Z) ax U :
  (forall i, i < length ls -> mem i ax = zmem (nth i ls 0%Z) U) ->
  free_labels 0%Z ls ax = filter (fun l => negb (zmem l U)) ls.
Proof.
  intros H. unfold free_labels, free_axes.
  rewrite <- (@gather_filter _ 0%Z (fun l => negb (zmem l U))). f_equal.
  apply filter_In_ext. intros i Hi. apply in_seq in Hi. rewrite H; [reflexivity | lia].
Qed.

Lemma gather_zindex (ls C : list Z) :
  (forall x, In x C -> In x ls) -> gather 0%Z ls (map (fun l => zindex l ls) C) = C.
Proof.
  intros H. unfold gather. rewrite map_map. erewrite map_ext_in; [apply map_id|].
  intros x Hx. apply nth_index_of, H, Hx.
Qed.

Lemma zindex_axes_lt (ls C : list Z) i :
  (forall x, In x C -> In x ls) -> In i (map (fun l => zindex l ls) C) -> i < length ls.
Proof. intros H Hi. apply in_map_iff in Hi. destruct Hi as (x & <- & Hx). apply index_of_lt, H, Hx. Qed.

Lemma zindex_NoDup (ls C : list Z) :
  (forall x, In x C -> In x ls) -> NoDup C -> NoDup (map (fun l => zindex l ls) C).
Proof.
  intros H. apply NoDup_map_in. intros a b Ha Hb E.
  rewrite <- (@nth_index_of _ Z.eq_dec a ls 0%Z), <- (@nth_index_of _ Z.eq_dec b ls 0%Z); auto.
  unfold zindex in E. congruence.
Qed.

Lemma mem_zindex (ls C : list Z) i :
  NoDup ls -> (forall x, In x C -> In x ls) -> i < length ls ->
  mem i (map (fun l => zindex l ls) C) = zmem (nth i ls 0%Z) C.
Proof.
  intros N H Hi.
  assert (In i (map (fun l => zindex l ls) C) <-> In (nth i ls 0%Z) C) as E.
  { rewrite in_map_iff. split.
    - intros (x & E & Hx). rewrite <- E. unfold zindex. rewrite nth_index_of; auto.
    - intros Hx. exists (nth i ls 0%Z). split; [|exact Hx]. apply index_of_nth; assumption. }
  destruct (zmem _ _) eqn:E1.
  - apply mem_In, E, zmem_In, E1.
  - apply mem_nIn. rewrite E. apply zmem_nIn, E1.
Qed.

Lemma NoDup_of_gather (ls : list Z) ax : NoDup (gather 0%Z ls ax) -> NoDup ax.
Proof. apply NoDup_map_inv. Qed.

(** ** every other element of a sorted list of pairs *)
Lemma evens_spec l :
  StronglySorted (fun a b => Z.leb a b = true) l -> (forall x, In x l -> zcount l x = 2) ->
  NoDup (evens l) /\ (forall x, In x (evens l) <-> In x l) /\ length l = 2 * length (evens l).
Proof.
  remember (length l) as n eqn:En. revert l En.
  induction n as [n IH] using lt_wf_ind. intros l En S H.
  destruct l as [|x l']; [simpl in *; subst; repeat split; [constructor | tauto | tauto]|].
  assert (zcount l' x = 1) as Hx.
  { specialize (H x (or_introl eq_refl)). unfold zcount in *. simpl in H. destruct (Z.eq_dec x x); [lia | congruence]. }
  inversion S as [|? ? S' F]; subst.
  destruct l' as [|y r]; [discriminate|].
  inversion S' as [|? ? S'' F']; subst. rewrite Forall_forall in F, F'.
  assert (y = x) as E.
  { assert (In x (y :: r)) as [E|Hin].
    { apply (count_occ_In Z.eq_dec). unfold zcount in Hx. lia. }
    { exact E. }
    { apply F' in Hin. specialize (F y (or_introl eq_refl)). apply Z.leb_le in F, Hin. lia. } }
  subst y.
  assert (~ In x r) as Nx.
  { apply (count_occ_not_In Z.eq_dec). unfold zcount in Hx. simpl in Hx. destruct (Z.eq_dec x x); [lia | congruence]. }
  assert (forall z, In z r -> zcount r z = 2) as Hr.
  { intros z Hz. specialize (H z). unfold zcount in *. simpl in H.
    destruct (Z.eq_dec x z) as [E|E]; [subst; contradiction|]. apply H. auto. }
  destruct (@IH (length r) ltac:(simpl; lia) r eq_refl S'' Hr) as (N & I & Le).
  split; [|split].
  - cbn [evens]. constructor; [rewrite I; exact Nx | exact N].
  - intros z. cbn [evens In]. rewrite I. tauto.
  - simpl in *. lia.
Qed.

Lemma In_positions l ls i : In i (positions l ls) <-> i < length ls /\ nth i ls 0%Z = l.
Proof. unfold positions. rewrite filter_In, in_seq, Z.eqb_eq. intuition lia. Qed.
Lemma NoDup_positions l ls : NoDup (positions l ls).
Proof. apply NoDup_filter, seq_NoDup. Qed.
Lemma length_positions l ls : length (positions l ls) = zcount ls l.
Proof.
  assert (length (positions l ls) = length (filter (fun x => Z.eqb x l) ls)) as ->.
  { rewrite <- (gather_filter 0%Z (fun x => Z.eqb x l) ls). unfold gather. rewrite map_length. reflexivity. }
  unfold zcount. induction ls as [|x r IH]; simpl; [reflexivity|].
  destruct (Z.eqb_spec x l), (Z.eq_dec x l); simpl; congruence.
Qed.
Lemma count_filter (p : Z -> bool) ls x : zcount (filter p ls) x = if p x then zcount ls x else 0.
Proof.
  unfold zcount. induction ls as [|y r IH]; simpl; [destruct (p x); reflexivity|].
  destruct (p y) eqn:E; simpl; destruct (Z.eq_dec y x) as [->|]; rewrite IH; rewrite ?E; try reflexivity;
    destruct (p x); reflexivity.
Qed.

(** ** Grouped reshapes *)
Lemma ravel3 g1 g2 g3 i1 i2 i3 :
  length i1 = length g1 -> length i2 = length g2 ->
  ravel (g1 ++ g2 ++ g3) (i1 ++ i2 ++ i3) =
  ravel [nprod g1; nprod g2; nprod g3] [ravel g1 i1; ravel g2 i2; ravel g3 i3].
Proof.
  intros. rewrite !ravel_app by assumption. cbn [ravel nprod fold_right]. rewrite nprod_app. unfold nprod. lia.
Qed.

Section Ops.
  Context {R : csr}.
  Add Ring Rring : (rsr R).
  Notation tensor := (tensor R).
  Notation factor := (@factor R).
  Notation esum := (esum Z.eq_dec).
  Notation binds := (binds Z.eq_dec).
  Implicit Types (t : tensor) (ls : list Z) (dim b : Z -> nat).

  Lemma reshape_app_elt t g1 g2 g3 i1 i2 i3 :
    shape t = g1 ++ g2 ++ g3 -> valid i1 g1 -> valid i2 g2 -> valid i3 g3 ->
    elt (reshape t [nprod g1; nprod g2; nprod g3]) [ravel g1 i1; ravel g2 i2; ravel g3 i3] = elt t (i1 ++ i2 ++ i3).
  Proof.
    intros E V1 V2 V3. cbn [reshape elt]. rewrite E, <- ravel3 by (eapply valid_length; eassumption).
    rewrite unravel_ravel; [reflexivity|]. auto using valid_app.
  Qed.
  Lemma reshape_split_elt t g1 g2 g3 i1 i2 i3 :
    shape t = [nprod g1; nprod g2; nprod g3] -> valid i1 g1 -> valid i2 g2 -> valid i3 g3 ->
    elt (reshape t (g1 ++ g2 ++ g3)) (i1 ++ i2 ++ i3) = elt t [ravel g1 i1; ravel g2 i2; ravel g3 i3].
  Proof.
    intros E V1 V2 V3. cbn [reshape elt]. rewrite E, ravel3 by (eapply valid_length; eassumption).
    rewrite unravel_ravel; [reflexivity|].
    repeat constructor; apply ravel_lt; assumption.
  Qed.

  Lemma np_transpose_ok t p : is_perm (rank t) p -> np_transpose t p = Ok (transpose t p).
  Proof. intros H. unfold np_transpose. apply is_permb_spec in H. rewrite H. reflexivity. Qed.
  Lemma np_reshape_ok t s : nprod s = nprod (shape t) -> np_reshape t s = Ok (reshape t s).
  Proof. intros H. unfold np_reshape. rewrite H, Nat.eqb_refl. reflexivity. Qed.

  Lemma free_axes_last2 k : free_axes (k + 2) [k; S k] = seq 0 k.
  Proof.
    unfold free_axes. rewrite seq_app, filter_app. cbn [Nat.add seq filter].
    assert (mem k [k; S k] = true) as -> by (apply mem_In; simpl; auto).
    assert (mem (S k) [k; S k] = true) as -> by (apply mem_In; simpl; auto).
    cbn [negb app]. rewrite app_nil_r. rewrite (@filter_In_ext _ _ (fun _ => true)).
    - induction (seq 0 k); simpl; congruence.
    - intros i Hi. apply in_seq in Hi. rewrite (proj2 (mem_nIn _ _)); [reflexivity|]. simpl. lia.
  Qed.

  Lemma unperm_seq A (d : A) (v : list A) : unperm d (seq 0 (length v)) v = v.
  Proof.
    pose proof (@unperm_gather A d d (seq 0 (length v)) v (is_perm_seq _)) as H.
    rewrite gather_seq in H. exact H.
  Qed.

  Lemma valid_dims dim ls b : (forall x, In x ls -> b x < dim x) -> valid (map b ls) (map dim ls).
  Proof. apply valid_map_asg. Qed.

  Lemma gather_shape dim t ls ax : fits dim (t, ls) -> (forall i, In i ax -> i < length ls) ->
    gather 0 (shape t) ax = map dim (gather 0%Z ls ax).
  Proof. intros F H. rewrite F. symmetry. apply map_gather. exact H. Qed.

  (** trace over two groups of axes with equal labels *)
  Lemma fval_multitrace dim t ls P0 P1 u b :
    fits dim (t, ls) -> NoDup (P0 ++ P1) -> (forall i, In i (P0 ++ P1) -> i < length ls) ->
    gather 0%Z ls P0 = u -> gather 0%Z ls P1 = u -> NoDup u ->
    (forall x, In x u -> ~ In x (free_labels 0%Z ls (P0 ++ P1))) ->
    let free := free_axes (length ls) (P0 ++ P1) in
    let d := nprod (map dim u) in
    let r := trace2 (reshape (transpose t (free ++ P0 ++ P1)) (gather 0 (shape t) free ++ [d; d]))
                    (length free) (S (length free)) in
    fits dim (r, free_labels 0%Z ls (P0 ++ P1)) /\
    ((forall x, In x (free_labels 0%Z ls (P0 ++ P1)) -> b x < dim x) ->
    fval (r, free_labels 0%Z ls (P0 ++ P1)) b = esum dim u (fval (t, ls)) b).
  Proof.
    intros F N Lt G0 G1 Nu Fu free d r.
    set (fl := free_labels 0%Z ls (P0 ++ P1)) in *.
    assert (forall i, In i free -> i < length ls) as Hf by (intros i Hi; apply In_free_axes in Hi; tauto).
    assert (gather 0 (shape t) free = map dim fl) as GF by (apply gather_shape; assumption).
    assert (length (gather 0 (shape t) free) = length free) as LF by apply gather_length.
    assert (rank (reshape (transpose t (free ++ P0 ++ P1)) (gather 0 (shape t) free ++ [d; d])) = length free + 2) as RK.
    { unfold rank. cbn [reshape shape]. rewrite app_length, LF. reflexivity. }
    assert (shape r = map dim fl) as SR.
    { subst r. unfold trace2. rewrite RK, free_axes_last2. cbn [shape reshape].
      rewrite GF in LF |- *. rewrite <- LF. apply gather_seq_app. }
    split; [exact SR|]. intros Hb.
    assert (length fl = length free) as Lfl by apply gather_length.
    unfold fval at 1. cbn [fst snd]. subst r. unfold trace2. rewrite RK, free_axes_last2. cbn [elt].
    rewrite esum_idxs. rewrite <- (nsum_unravel (map dim u) (fun vs => fval (t, ls) (binds b u vs))).
    assert (nth (length free) (shape (reshape (transpose t (free ++ P0 ++ P1)) (gather 0 (shape t) free ++ [d; d]))) 0 = d) as ->.
    { cbn [reshape shape]. rewrite <- LF. apply nth_middle. }
    apply nsum_ext. intros v Hv.
    assert (seq 0 (length free) ++ [length free; S (length free)] = seq 0 (length (map b fl ++ [v; v]))) as ->.
    { rewrite app_length, map_length, Lfl. cbn [length].
      rewrite seq_app. cbn. reflexivity. }
    rewrite unperm_seq. cbn [reshape elt transpose shape].
    rewrite !gather_app, GF.
    rewrite (gather_shape F (ax := P0)), (gather_shape F (ax := P1)), G0, G1 by (intros i Hi; apply Lt, in_or_app; auto).
    assert (valid (map b fl) (map dim fl)) as Vf by (apply valid_dims; exact Hb).
    assert (valid (unravel (map dim u) v) (map dim u)) as Vu by (apply unravel_valid; exact Hv).
    assert (ravel (map dim fl ++ [d; d]) (map b fl ++ [v; v]) =
            ravel (map dim fl ++ map dim u ++ map dim u)
                  (map b fl ++ unravel (map dim u) v ++ unravel (map dim u) v)) as ->.
    { rewrite !ravel_app by (eapply valid_length; eassumption).
      rewrite nprod_app, ravel_unravel by exact Hv. fold d. cbn. lia. }
    rewrite unravel_ravel by auto using valid_app.
    unfold fl, free_labels. fold free.
    assert (length (unravel (map dim u) v) = length u) as Lu by (erewrite valid_length by exact Vu; apply map_length).
    set (c := binds b u (unravel (map dim u) v)).
    assert (map b (gather 0%Z ls free) ++ unravel (map dim u) v ++ unravel (map dim u) v
            = gather 0 (map c ls) (free ++ P0 ++ P1)) as ->.
    { rewrite <- (@map_gather _ _ c 0%Z ls (free ++ P0 ++ P1) 0).
      - rewrite !gather_app, !map_app, G0, G1. f_equal.
        + symmetry. apply map_binds_other. intros y Hy Hu. exact (Fu y Hu Hy).
        + unfold c. rewrite map_binds by assumption. reflexivity.
      - intros i Hi. apply in_app_or in Hi. destruct Hi; auto. }
    rewrite unperm_gather; [reflexivity|]. rewrite map_length.
    apply free_axes_perm; assumption.
  Qed.

  Lemma nodup_zcount ls : (forall l, In l ls -> zcount ls l = 1) -> NoDup ls.
  Proof.
    intros H. apply (NoDup_count_occ Z.eq_dec). intros l.
    destruct (in_dec Z.eq_dec l ls) as [i|i]; [unfold zcount in H; rewrite H; auto|].
    rewrite (proj1 (count_occ_not_In Z.eq_dec ls l) i). lia.
  Qed.

  Lemma pos01 ls l : zcount ls l = 2 ->
    let i := nth 0 (positions l ls) 0 in let j := nth 1 (positions l ls) 0 in
    positions l ls = [i; j] /\ i < length ls /\ j < length ls /\ nth i ls 0%Z = l /\ nth j ls 0%Z = l /\ i <> j.
  Proof.
    intros H i j. pose proof (NoDup_positions l ls) as N. pose proof (length_positions l ls) as Lp.
    assert (forall k, In k (positions l ls) -> k < length ls /\ nth k ls 0%Z = l) as I by (intros k; apply In_positions).
    subst i j. destruct (positions l ls) as [|i [|j [|]]]; simpl in Lp; try lia. cbn [nth].
    inversion N as [|? ? Ni _]; subst.
    destruct (I i) as [? ?]; [simpl; auto|]. destruct (I j) as [? ?]; [simpl; auto|].
    repeat split; auto. intros ->. apply Ni. left. reflexivity.
  Qed.

  (** ** _partial_trace *)
  Lemma partial_trace_ok dim t ls :
    fits dim (t, ls) -> (forall l, In l ls -> zcount ls l <= 2) ->
    exists y u, partial_trace (t, ls) = Ok (y, u) /\ NoDup u /\
      (forall l, In l u <-> zcount ls l = 2) /\ snd y = filter (fun l => negb (zmem l u)) ls /\
      fits dim y /\ NoDup (snd y) /\
      forall b, (forall l, In l (snd y) -> b l < dim l) -> fval y b = esum dim u (fval (t, ls)) b.
  Proof.
    intros F H2. unfold partial_trace.
    set (tl := filter (fun l => Nat.eqb (zcount ls l) 2) ls).
    assert (forall l, In l tl <-> zcount ls l = 2) as Htl.
    { intros l. unfold tl. rewrite filter_In, Nat.eqb_eq. split; [tauto|]. intros E. split; [|exact E].
      apply (count_occ_In Z.eq_dec). unfold zcount in E. lia. }
    assert (forall l, In l tl -> zcount tl l = 2) as Ctl.
    { intros l Hl. unfold tl. rewrite count_filter. apply Htl in Hl. rewrite Hl. reflexivity. }
    destruct tl as [|t0 tl'] eqn:Et.
    - exists (t, ls), []. cbn [snd].
      assert (forall l, In l ls -> zcount ls l = 1) as H1.
      { intros l Hl. specialize (H2 l Hl). specialize (Htl l).
        assert (0 < zcount ls l) by (apply (count_occ_In Z.eq_dec) in Hl; exact Hl).
        assert (zcount ls l <> 2) by (rewrite <- Htl; intros []). lia. }
      repeat split; auto.
      + constructor.
      + apply Htl.
      + apply Htl.
      + symmetry. rewrite (@filter_In_ext _ _ (fun _ => true)); [|reflexivity].
        clear. induction ls; simpl; congruence.
      + apply nodup_zcount, H1.
    - rewrite <- Et in *. clear Et t0 tl'.
      destruct (@evens_spec (sort Z.leb tl)) as (Nu & Iu & Lu).
      { apply sort_sorted.
        - intros x y. rewrite !Z.leb_le. lia.
        - intros x y z. rewrite !Z.leb_le. lia. }
      { intros x Hx. apply In_sort in Hx. rewrite <- (Ctl x Hx). unfold zcount.
        apply Permutation_count_occ, sort_perm. }
      set (u := evens (sort Z.leb tl)) in *.
      assert (forall l, In l u <-> zcount ls l = 2) as Hu by (intros l; rewrite Iu, In_sort; apply Htl).
      set (P0 := map (fun l => nth 0 (positions l ls) 0) u).
      set (P1 := map (fun l => nth 1 (positions l ls) 0) u).
      assert (length tl / 2 = length P0) as ->.
      { unfold P0. rewrite map_length. rewrite <- (Permutation_length (sort_perm Z.leb tl)), Lu.
        rewrite Nat.mul_comm. apply Nat.div_mul. lia. }
      rewrite firstn_app, firstn_all, Nat.sub_diag. cbn [firstn]. rewrite app_nil_r.
      assert (gather 0%Z ls P0 = u) as G0.
      { unfold gather, P0. rewrite map_map. erewrite map_ext_in; [apply map_id|].
        intros l Hl. apply Hu in Hl. apply pos01 in Hl. cbn zeta in Hl. tauto. }
      assert (gather 0%Z ls P1 = u) as G1.
      { unfold gather, P1. rewrite map_map. erewrite map_ext_in; [apply map_id|].
        intros l Hl. apply Hu in Hl. apply pos01 in Hl. cbn zeta in Hl. tauto. }
      assert (forall i, In i (P0 ++ P1) -> i < length ls) as Lt.
      { intros i Hi. apply in_app_or in Hi. unfold P0, P1 in Hi. rewrite !in_map_iff in Hi.
        destruct Hi as [(l & <- & Hl)|(l & <- & Hl)]; apply Hu in Hl; apply pos01 in Hl; cbn zeta in Hl; tauto. }
      assert (NoDup (P0 ++ P1)) as N.
      { apply NoDup_app_iff. split; [apply (@NoDup_of_gather ls); rewrite G0; exact Nu|].
        split; [apply (@NoDup_of_gather ls); rewrite G1; exact Nu|].
        intros i Hi Hj. unfold P0, P1 in *. rewrite !in_map_iff in *.
        destruct Hi as (l & Ei & Hl), Hj as (l' & Ej & Hl').
        apply Hu in Hl, Hl'. apply pos01 in Hl, Hl'. cbn zeta in Hl, Hl'.
        destruct Hl as (_ & _ & _ & E1 & _ & Nij). destruct Hl' as (_ & _ & _ & _ & E2 & _).
        rewrite Ei in E1. rewrite Ej in E2. subst l l'. congruence. }
      assert (free_labels 0%Z ls (P0 ++ P1) = filter (fun l => negb (zmem l u)) ls) as FL.
      { apply free_labels_filter. intros i Hi.
        assert (In i (P0 ++ P1) <-> In (nth i ls 0%Z) u) as E.
        { split.
          - intros Hp. apply in_app_or in Hp.
            destruct Hp as [Hp|Hp]; [rewrite <- G0 | rewrite <- G1]; apply In_gather; eauto.
          - intros Hl. pose proof (proj1 (Hu _) Hl) as C. apply pos01 in C. cbn zeta in C.
            destruct C as (Ep & _).
            assert (In i (positions (nth i ls 0%Z) ls)) as Hp by (apply In_positions; auto).
            rewrite Ep in Hp. apply in_or_app. unfold P0, P1. rewrite !in_map_iff.
            destruct Hp as [Hp|[Hp|[]]]; [left|right]; exists (nth i ls 0%Z); auto. }
        destruct (zmem _ u) eqn:Ez.
        - apply mem_In, E, zmem_In, Ez.
        - apply mem_nIn. rewrite E. apply zmem_nIn, Ez. }
      assert (forall x, In x u -> ~ In x (free_labels 0%Z ls (P0 ++ P1))) as Fu.
      { intros x Hx Hy. rewrite FL, filter_In in Hy. destruct Hy as [_ Hy].
        rewrite (proj2 (zmem_In x u) Hx) in Hy. discriminate. }
      pose proof (free_axes_perm N Lt) as IP.
      rewrite np_transpose_ok by (rewrite (fits_rank F); exact IP). cbn [rbind].
      assert (gather 0 (shape t) P0 = map dim u) as GS0.
      { rewrite (gather_shape F), G0; [reflexivity|]. intros i Hi. apply Lt, in_or_app. auto. }
      assert (gather 0 (shape t) P1 = map dim u) as GS1.
      { rewrite (gather_shape F), G1; [reflexivity|]. intros i Hi. apply Lt, in_or_app. auto. }
      rewrite np_reshape_ok.
      2:{ cbn [transpose shape]. rewrite !gather_app, !nprod_app, GS0, GS1. cbn. lia. }
      cbn [rbind]. rewrite GS0, <- FL.
      eexists _, u. split; [reflexivity|]. cbn [snd].
      repeat split; auto.
      + apply Hu.
      + apply Hu.
      + destruct (@fval_multitrace dim t ls P0 P1 u (fun _ => 0) F N Lt G0 G1 Nu Fu) as [Ft _].
        exact Ft.
      + rewrite FL. apply nodup_zcount. intros l Hl. apply filter_In in Hl. destruct Hl as [Hl Hz].
        rewrite count_filter, Hz. specialize (H2 l Hl).
        assert (0 < zcount ls l) by (apply (count_occ_In Z.eq_dec) in Hl; exact Hl).
        assert (zcount ls l <> 2); [|lia].
        rewrite <- Hu. apply zmem_nIn. destruct (zmem l u); [discriminate | reflexivity].
      + intros b Hb. destruct (@fval_multitrace dim t ls P0 P1 u b F N Lt G0 G1 Nu Fu) as [_ E]. exact (E Hb).
  Qed.

  (** ** _batch_cont *)
  Section Iter.
  Variable iter : list Z -> list Z.
  Hypothesis iter_perm : forall l, Permutation (iter l) l.

  Lemma In_iter l x : In x (iter l) <-> In x l.
  Proof. split; apply Permutation_in; [|apply Permutation_sym]; apply iter_perm. Qed.
  Lemma NoDup_iter l : NoDup l -> NoDup (iter l).
  Proof. apply Permutation_NoDup, Permutation_sym, iter_perm. Qed.

  Definition bfree (cc cb : list Z) (l : Z) : bool := negb (zmem l cc) && negb (zmem l cb).
  Definition faxes (cc cb ls : list Z) : list nat :=
    filter (fun n => bfree cc cb (nth n ls 0%Z)) (seq 0 (length ls)).

  Lemma faxes_perm cc cb ls :
    NoDup ls -> NoDup (cb ++ cc) -> (forall x, In x (cb ++ cc) -> In x ls) ->
    is_perm (length ls) (map (fun l => zindex l ls) cb ++ faxes cc cb ls ++ map (fun l => zindex l ls) cc).
  Proof.
    intros Nl Nc I.
    assert (faxes cc cb ls = free_axes (length ls) (map (fun l => zindex l ls) (cb ++ cc))) as ->.
    { unfold faxes, free_axes. apply filter_In_ext. intros i Hi. apply in_seq in Hi.
      rewrite mem_zindex by (auto; lia). unfold bfree.
      assert (zmem (nth i ls 0%Z) (cb ++ cc) = zmem (nth i ls 0%Z) cb || zmem (nth i ls 0%Z) cc) as ->.
      { unfold zmem. apply existsb_app. }
      destruct (zmem _ cc), (zmem _ cb); reflexivity. }
    pose proof (@free_axes_perm (length ls) (map (fun l => zindex l ls) (cb ++ cc)) (zindex_NoDup I Nc)
                 (fun i => zindex_axes_lt I (i := i))) as P.
    unfold is_perm in *. rewrite <- P. rewrite map_app.
    rewrite (Permutation_app_comm (map _ cb)), <- app_assoc. apply Permutation_app_head, Permutation_app_comm.
  Qed.

  Lemma faxes_lt cc cb ls i : In i (faxes cc cb ls) -> i < length ls.
  Proof. unfold faxes. rewrite filter_In, in_seq. lia. Qed.
  Lemma gather_faxes cc cb ls : gather 0%Z ls (faxes cc cb ls) = filter (bfree cc cb) ls.
  Proof. apply gather_filter. Qed.

  Lemma batch_cont_ok dim t1 l1 t2 l2 cb :
    fits dim (t1, l1) -> fits dim (t2, l2) -> NoDup l1 -> NoDup l2 ->
    NoDup cb -> (forall l, In l cb -> In l l1 /\ In l l2) ->
    exists y cc, batch_cont iter (t1, l1) (t2, l2) cb = Ok (y, cc) /\ NoDup cc /\
      (forall l, In l cc <-> In l l1 /\ In l l2 /\ ~ In l cb) /\
      snd y = cb ++ filter (bfree cc cb) l1 ++ filter (bfree cc cb) l2 /\
      fits dim y /\ NoDup (snd y) /\
      forall b, (forall l, In l (snd y) -> b l < dim l) ->
        fval y b = esum dim cc (netprod [(t1, l1); (t2, l2)]) b.
  Proof.
    intros F1 F2 N1 N2 Nb Ib. unfold batch_cont.
    set (nb1 := filter (fun l => negb (zmem l cb)) (nodup Z.eq_dec l1)).
    set (nb2 := filter (fun l => negb (zmem l cb)) (nodup Z.eq_dec l2)).
    set (cc := iter (filter (fun l => zmem l nb2) nb1)).
    assert (NoDup cc) as Ncc.
    { apply NoDup_iter, NoDup_filter, NoDup_filter, NoDup_nodup. }
    assert (forall l, In l cc <-> In l l1 /\ In l l2 /\ ~ In l cb) as Icc.
    { intros l. unfold cc. rewrite In_iter, filter_In, zmem_In. unfold nb1, nb2.
      rewrite !filter_In, !nodup_In, !negb_true_iff, !zmem_nIn. tauto. }
    clearbody cc. clear nb1 nb2.
    cbv zeta.
    change (filter (fun n => negb (zmem (nth n l1 0%Z) cc) && negb (zmem (nth n l1 0%Z) cb)) (seq 0 (length l1)))
      with (faxes cc cb l1).
    change (filter (fun n => negb (zmem (nth n l2 0%Z) cc) && negb (zmem (nth n l2 0%Z) cb)) (seq 0 (length l2)))
      with (faxes cc cb l2).
    assert (NoDup (cb ++ cc)) as Nbc.
    { apply NoDup_app_iff. repeat split; auto. intros l Hl Hc. apply Icc in Hc. tauto. }
    assert (forall x, In x (cb ++ cc) -> In x l1) as I1.
    { intros x Hx. apply in_app_or in Hx. destruct Hx as [Hx|Hx]; [apply Ib in Hx | apply Icc in Hx]; tauto. }
    assert (forall x, In x (cb ++ cc) -> In x l2) as I2.
    { intros x Hx. apply in_app_or in Hx. destruct Hx as [Hx|Hx]; [apply Ib in Hx | apply Icc in Hx]; tauto. }
    pose proof (faxes_perm N1 Nbc I1) as P1.
    pose proof (faxes_perm N2 Nbc I2) as P2.
    set (b1 := map (fun l => zindex l l1) cb) in *.
    set (b2 := map (fun l => zindex l l2) cb) in *.
    set (c1 := map (fun l => zindex l l1) cc) in *.
    set (c2 := map (fun l => zindex l l2) cc) in *.
    set (f1 := faxes cc cb l1) in *. set (f2 := faxes cc cb l2) in *.
    assert (is_perm (length l2) (b2 ++ c2 ++ f2)) as P2'.
    { unfold is_perm in *. rewrite <- P2. apply Permutation_app_head, Permutation_app_comm. }
    assert (gather 0%Z l1 b1 = cb) as Gb1 by (apply gather_zindex; intros; apply I1, in_or_app; auto).
    assert (gather 0%Z l2 b2 = cb) as Gb2 by (apply gather_zindex; intros; apply I2, in_or_app; auto).
    assert (gather 0%Z l1 c1 = cc) as Gc1 by (apply gather_zindex; intros; apply I1, in_or_app; auto).
    assert (gather 0%Z l2 c2 = cc) as Gc2 by (apply gather_zindex; intros; apply I2, in_or_app; auto).
    assert (gather 0%Z l1 f1 = filter (bfree cc cb) l1) as Gf1 by apply gather_faxes.
    assert (gather 0%Z l2 f2 = filter (bfree cc cb) l2) as Gf2 by apply gather_faxes.
    set (FL1 := filter (bfree cc cb) l1) in *. set (FL2 := filter (bfree cc cb) l2) in *.
    assert (forall i, In i (b1 ++ f1 ++ c1) -> i < length l1) as L1 by (intros i Hi; apply (is_perm_In i P1), Hi).
    assert (forall i, In i (b2 ++ c2 ++ f2) -> i < length l2) as L2 by (intros i Hi; apply (is_perm_In i P2'), Hi).
    assert (gather 0 (shape t1) b1 = map dim cb) as Sb1.
    { rewrite (gather_shape F1), Gb1; [reflexivity|]. intros i Hi; apply L1; rewrite !in_app_iff; auto. }
    assert (gather 0 (shape t1) f1 = map dim FL1) as Sf1.
    { rewrite (gather_shape F1), Gf1; [reflexivity|]. intros i Hi; apply L1; rewrite !in_app_iff; auto. }
    assert (gather 0 (shape t1) c1 = map dim cc) as Sc1.
    { rewrite (gather_shape F1), Gc1; [reflexivity|]. intros i Hi; apply L1; rewrite !in_app_iff; auto. }
    assert (gather 0 (shape t2) b2 = map dim cb) as Sb2.
    { rewrite (gather_shape F2), Gb2; [reflexivity|]. intros i Hi; apply L2; rewrite !in_app_iff; auto. }
    assert (gather 0 (shape t2) f2 = map dim FL2) as Sf2.
    { rewrite (gather_shape F2), Gf2; [reflexivity|]. intros i Hi; apply L2; rewrite !in_app_iff; auto. }
    assert (gather 0 (shape t2) c2 = map dim cc) as Sc2.
    { rewrite (gather_shape F2), Gc2; [reflexivity|]. intros i Hi; apply L2; rewrite !in_app_iff; auto. }
    rewrite np_transpose_ok by (rewrite (fits_rank F1); exact P1). cbn [rbind].
    rewrite Sb1, Sf1, Sc1, Sb2, Sf2, Sc2, Gb1, Gf1, Gf2.
    set (u1 := transpose t1 (b1 ++ f1 ++ c1)).
    assert (shape u1 = map dim cb ++ map dim FL1 ++ map dim cc) as Su1.
    { unfold u1. cbn [transpose shape]. rewrite !gather_app, Sb1, Sf1, Sc1. reflexivity. }
    rewrite np_reshape_ok by (rewrite Su1, !nprod_app; cbn; lia). cbn [rbind].
    rewrite np_transpose_ok by (rewrite (fits_rank F2); exact P2'). cbn [rbind].
    set (u2 := transpose t2 (b2 ++ c2 ++ f2)).
    assert (shape u2 = map dim cb ++ map dim cc ++ map dim FL2) as Su2.
    { unfold u2. cbn [transpose shape]. rewrite !gather_app, Sb2, Sf2, Sc2. reflexivity. }
    rewrite np_reshape_ok by (rewrite Su2, !nprod_app; cbn; lia). cbn [rbind].
    unfold matmul3. cbn [shape reshape]. rewrite !Nat.eqb_refl. cbn [orb andb guard rbind].
    set (B := nprod (map dim cb)).
    set (m := Tensor _ _).
    assert (shape m = [B; nprod (map dim FL1); nprod (map dim FL2)]) as Sm.
    { unfold m. cbn [shape]. destruct (Nat.eqb B 1); reflexivity. }
    rewrite np_reshape_ok by (rewrite Sm, !nprod_app; cbn; unfold B; lia). cbn [rbind].
    eexists _, cc. split; [reflexivity|]. cbn [snd fst].
    split; [exact Ncc|]. split; [exact Icc|]. split; [reflexivity|].
    split; [unfold fits; cbn [fst snd shape reshape]; rewrite !map_app; reflexivity|].
    split.
    { apply NoDup_app_iff. split; [exact Nb|]. split.
      - apply NoDup_app_iff. split; [apply NoDup_filter, N1|]. split; [apply NoDup_filter, N2|].
        intros x H1 H2. unfold FL1, FL2 in *. rewrite filter_In in H1, H2. unfold bfree in *.
        rewrite andb_true_iff, !negb_true_iff, !zmem_nIn in H1, H2. rewrite Icc in H1. tauto.
      - intros x Hx H. apply in_app_or in H. unfold FL1, FL2, bfree in H. rewrite !filter_In in H.
        rewrite !andb_true_iff, !negb_true_iff, !zmem_nIn in H. tauto. }
    intros b Hb.
    assert (forall l, In l cb -> b l < dim l) as Hbb by (intros; apply Hb; rewrite !in_app_iff; auto).
    assert (forall l, In l FL1 -> b l < dim l) as Hbf1 by (intros; apply Hb; rewrite !in_app_iff; auto).
    assert (forall l, In l FL2 -> b l < dim l) as Hbf2 by (intros; apply Hb; rewrite !in_app_iff; auto).
    unfold fval at 1. cbn [fst snd]. rewrite !map_app.
    rewrite reshape_split_elt by (try exact Sm; apply valid_dims; assumption).
    rewrite esum_idxs. rewrite <- nsum_unravel.
    unfold m. cbn [elt nth].
    set (rb := ravel (map dim cb) (map b cb)).
    assert (rb < B) as Hrb by (apply ravel_lt, valid_dims; assumption).
    assert ((if B =? 1 then 0 else rb) = rb) as -> by (destruct (Nat.eqb_spec B 1); lia).
    apply nsum_ext. intros z Hz.
    set (vs := unravel (map dim cc) z).
    assert (valid vs (map dim cc)) as Vv by (apply unravel_valid; exact Hz).
    assert (z = ravel (map dim cc) vs) as Ez by (symmetry; apply ravel_unravel; exact Hz).
    rewrite Ez. unfold rb, B.
    rewrite (@reshape_app_elt u1) by (try exact Su1; try exact Vv; apply valid_dims; assumption).
    rewrite (@reshape_app_elt u2) by (try exact Su2; try exact Vv; apply valid_dims; assumption).
    set (c := binds b cc vs).
    assert (length vs = length cc) as Lv by (rewrite (valid_length Vv), map_length; reflexivity).
    assert (map c cc = vs) as Mc by (apply map_binds; assumption).
    assert (map c cb = map b cb) as Mb.
    { apply map_binds_other. intros x Hx Hc. apply Icc in Hc. tauto. }
    assert (map c FL1 = map b FL1) as Mf1.
    { apply map_binds_other. intros x Hx Hc. unfold FL1, bfree in Hx.
      rewrite filter_In, andb_true_iff, negb_true_iff, zmem_nIn in Hx. tauto. }
    assert (map c FL2 = map b FL2) as Mf2.
    { apply map_binds_other. intros x Hx Hc. unfold FL2, bfree in Hx.
      rewrite filter_In, andb_true_iff, negb_true_iff, zmem_nIn in Hx. tauto. }
    rewrite <- Mc, <- Mb, <- Mf1, <- Mf2, <- !map_app.
    unfold netprod.
    pose proof (@fval_transpose _ R t1 l1 (b1 ++ f1 ++ c1) 0%Z c P1) as E1.
    pose proof (@fval_transpose _ R t2 l2 (b2 ++ c2 ++ f2) 0%Z c P2') as E2.
    unfold fval in E1, E2 at 1. cbn [fst snd] in E1, E2.
    rewrite !gather_app, Gb1, Gf1, Gc1 in E1. rewrite !gather_app, Gb2, Gf2, Gc2 in E2.
    unfold u1, u2. rewrite E1, E2. unfold fval. cbn [fst snd].
    unfold lprod. cbn [fold_right fst snd]. ring.
  Qed.

  (** ** tensordot of two tensors *)
  Lemma dot_ok dim t1 l1 t2 l2 common :
    fits dim (t1, l1) -> fits dim (t2, l2) -> NoDup l1 -> NoDup l2 ->
    NoDup common -> (forall l, In l common <-> In l l1 /\ In l l2) ->
    exists y, dot (t1, l1) (t2, l2) common = Ok y /\
      snd y = filter (fun l => negb (zmem l common)) l1 ++ filter (fun l => negb (zmem l common)) l2 /\
      fits dim y /\ NoDup (snd y) /\
      forall b, fval y b = esum dim common (netprod [(t1, l1); (t2, l2)]) b.
  Proof.
    intros F1 F2 N1 N2 Nc Ic. unfold dot.
    set (c1 := map (fun l => zindex l l1) common).
    set (c2 := map (fun l => zindex l l2) common).
    set (ind := map (fun i => nindex i c1) (sort Nat.leb c1)).
    assert (forall l, In l common -> In l l1) as I1 by (intros l Hl; apply Ic in Hl; tauto).
    assert (forall l, In l common -> In l l2) as I2 by (intros l Hl; apply Ic in Hl; tauto).
    assert (NoDup c1) as Nc1 by (apply zindex_NoDup; assumption).
    assert (is_perm (length common) ind) as Pi.
    { assert (length c1 = length common) as Lc by apply map_length. rewrite <- Lc.
      apply is_perm_intro.
      - unfold ind. rewrite map_length. apply Permutation_length, sort_perm.
      - unfold ind. apply NoDup_map_in.
        + intros i j Hi Hj E. apply In_sort in Hi, Hj.
          pose proof (@nth_index_of _ Nat.eq_dec i c1 0 Hi) as Ei. pose proof (@nth_index_of _ Nat.eq_dec j c1 0 Hj) as Ej.
          rewrite E in Ei. rewrite <- Ei. exact Ej.
        + apply NoDup_sort, Nc1.
      - intros i Hi. unfold ind in Hi. apply in_map_iff in Hi. destruct Hi as (j & <- & Hj).
        apply In_sort in Hj. apply index_of_lt, Hj. }
    set (C := gather 0%Z common ind).
    assert (Permutation C common) as PC by (apply gather_perm; exact Pi).
    assert (NoDup C) as NC by (eapply Permutation_NoDup; [apply Permutation_sym; exact PC | exact Nc]).
    assert (forall i, In i ind -> i < length common) as Hind by (intros i Hi; apply (is_perm_In i Pi), Hi).
    assert (gather 0 c1 ind = map (fun l => zindex l l1) C) as A1.
    { unfold c1, C. symmetry. apply map_gather. exact Hind. }
    assert (gather 0 c2 ind = map (fun l => zindex l l2) C) as A2.
    { unfold c2, C. symmetry. apply map_gather. exact Hind. }
    rewrite A1, A2.
    assert (forall l, In l C <-> In l common) as HC.
    { intros l. split; apply Permutation_in; [exact PC | apply Permutation_sym; exact PC]. }
    assert (forall l, In l C -> In l l1) as J1 by (intros l Hl; apply I1, HC, Hl).
    assert (forall l, In l C -> In l l2) as J2 by (intros l Hl; apply I2, HC, Hl).
    assert (gather 0%Z l1 (map (fun l => zindex l l1) C) = C) as G1 by (apply gather_zindex; assumption).
    assert (gather 0%Z l2 (map (fun l => zindex l l2) C) = C) as G2 by (apply gather_zindex; assumption).
    assert (forall i, In i (map (fun l => zindex l l1) C) -> i < length l1) as L1 by (intros i; apply zindex_axes_lt, J1).
    assert (forall i, In i (map (fun l => zindex l l2) C) -> i < length l2) as L2 by (intros i; apply zindex_axes_lt, J2).
    assert (free_labels 0%Z l1 (map (fun l => zindex l l1) C) = filter (fun l => negb (zmem l common)) l1) as FL1.
    { apply free_labels_filter. intros i Hi. rewrite mem_zindex by assumption. apply zmem_ext, HC. }
    assert (free_labels 0%Z l2 (map (fun l => zindex l l2) C) = filter (fun l => negb (zmem l common)) l2) as FL2.
    { apply free_labels_filter. intros i Hi. rewrite mem_zindex by assumption. apply zmem_ext, HC. }
    rewrite (gather_shape F1 L1), (gather_shape F2 L2), G1, G2.
    destruct (list_eq_dec Nat.eq_dec (map dim C) (map dim C)) as [_|n]; [|congruence].
    cbn [guard]. rewrite <- FL1, <- FL2.
    eexists. split; [reflexivity|]. cbn [snd]. split; [reflexivity|].
    split; [apply fits_tensordot; assumption|]. split.
    - rewrite FL1, FL2. apply NoDup_app_iff.
      split; [apply NoDup_filter, N1|]. split; [apply NoDup_filter, N2|].
      intros x H1 H2. rewrite filter_In, negb_true_iff, zmem_nIn in H1, H2. apply (proj2 H1), Ic. tauto.
    - intros b. erewrite fval_tensordot with (dim := dim) (C := C).
      + rewrite (@esum_perm _ Z.eq_dec R dim C common _ b).
        * reflexivity.
        * eapply dep_ext. apply netprod_dep.
        * exact NC.
        * exact PC.
      + exact F1.
      + apply (fits_rank F2).
      + apply zindex_NoDup; assumption.
      + apply zindex_NoDup; assumption.
      + exact L1.
      + exact L2.
      + exact G1.
      + exact G2.
      + exact NC.
      + intros x Hx H. rewrite FL1, filter_In, negb_true_iff, zmem_nIn in H. apply (proj2 H), HC, Hx.
      + intros x Hx H. rewrite FL2, filter_In, negb_true_iff, zmem_nIn in H. apply (proj2 H), HC, Hx.
  Qed.

  (** ** np.sum over labels occurring once *)
  Lemma sum_axes_ok dim t ls cl :
    fits dim (t, ls) -> NoDup ls -> NoDup cl -> (forall l, In l cl -> In l ls) ->
    let y := (sum_axes t (map (fun l => zindex l ls) cl), filter (fun l => negb (zmem l cl)) ls) in
    fits dim y /\ NoDup (snd y) /\ forall b, fval y b = esum dim cl (fval (t, ls)) b.
  Proof.
    intros F N Nc I y.
    assert (free_labels 0%Z ls (map (fun l => zindex l ls) cl) = filter (fun l => negb (zmem l cl)) ls) as FL.
    { apply free_labels_filter. intros i Hi. apply mem_zindex; assumption. }
    assert (forall i, In i (map (fun l => zindex l ls) cl) -> i < length ls) as Lt by (intros i; apply zindex_axes_lt, I).
    split; [|split].
    - unfold y, fits. cbn [fst snd sum_axes shape]. rewrite <- FL, (fits_rank F).
      apply gather_shape; [exact F|]. intros i Hi. apply In_free_axes in Hi. tauto.
    - apply NoDup_filter, N.
    - intros b. unfold y. rewrite <- FL. unfold fval at 1. cbn [fst snd sum_axes elt].
      rewrite (fits_rank F), esum_idxs, (gather_shape F Lt), gather_zindex by exact I.
      apply lsum_ext. intros vs Hv. apply In_idxs in Hv.
      rewrite <- (@fval_unperm_split _ Z.eq_dec R t ls (map (fun l => zindex l ls) cl) 0%Z b cl vs).
      + reflexivity.
      + apply zindex_NoDup; assumption.
      + exact Lt.
      + apply gather_zindex, I.
      + exact Nc.
      + intros x Hx H. rewrite FL, filter_In, negb_true_iff, zmem_nIn in H. tauto.
      + rewrite (valid_length Hv). apply map_length.
  Qed.
  End Iter.
End Ops.
