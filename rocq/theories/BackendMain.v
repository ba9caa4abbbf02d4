From Coq Require Import ZArith Sorting.Sorted.
From Verif Require Import Prelude Res Algebra Tensor TensorFacts ListFacts Backends BackendSpec BackendFacts.
Set Implicit Arguments.
Unset Strict Implicit.

Definition zs (l : list nat) : list Z := map Z.of_nat l.
(** the same axes counted from the end *)
Definition negs (n : nat) (l : list nat) : list Z := map (fun i => Z.of_nat i - Z.of_nat n)%Z l.

Section Main.
  Context {R : csr}.
  Add Ring Rring : (rsr R).

  Lemma norm_axes_map n za ax : norm_axes n za = Ok ax <->
    (forall z, In z za -> 0 <= norm_axis n z < Z.of_nat n)%Z /\ ax = map (fun z => Z.to_nat (norm_axis n z)) za.
  Proof.
    unfold norm_axes. destruct (forallb _ za) eqn:E; split.
    - intros H. injection H as <-. split; [|reflexivity]. intros z Hz. rewrite forallb_forall in E.
      apply E, andb_true_iff in Hz as [H1 H2]. apply Z.leb_le in H1. apply Z.ltb_lt in H2. lia.
    - intros [_ ->]. reflexivity.
    - discriminate.
    - intros [H _]. exfalso. assert (forallb (fun i => (0 <=? norm_axis n i) && (norm_axis n i <? Z.of_nat n))%Z za = true) as E'; [|congruence].
      apply forallb_forall. intros z Hz. apply andb_true_iff. specialize (H z Hz).
      split; [apply Z.leb_le | apply Z.ltb_lt]; lia.
  Qed.

  Lemma combine_map2 A B C D (f : A -> C) (g : B -> D) (l : list (A * B)) :
    combine (map f (map fst l)) (map g (map snd l)) = map (fun p => (f (fst p), g (snd p))) l.
  Proof. induction l as [|[x y] r IH]; cbn; f_equal; auto. Qed.
  Lemma split_maps A B (l : list (A * B)) : split l = (map fst l, map snd l).
  Proof. induction l as [|[x y] r IH]; cbn; [reflexivity|]. rewrite IH. reflexivity. Qed.
  Lemma combine_maps A B (l : list A) (m : list B) : length l = length m ->
    map fst (combine l m) = l /\ map snd (combine l m) = m.
  Proof. split; [apply map_fst_combine | apply map_snd_combine]; assumption. Qed.

  Lemma tensordot2_spec (a b : tensor R) za zb ax bx :
    norm_axes (rank a) za = Ok ax -> norm_axes (rank b) zb = Ok bx -> length za = length zb ->
    contractible a b (combine ax bx) ->
    exists c, tensordot2 a b za zb = Ok c /\ teq c (contraction a b (combine ax bx)).
  Proof.
    intros Ha Hb Hl Hc. unfold tensordot2, sorted_axes. rewrite Hl, Nat.eqb_refl. cbn [rbind].
    rewrite split_maps. cbn [fst snd].
    set (zp := sort pair_leb (combine za zb)).
    assert (Permutation zp (combine za zb)) as Pz by apply sort_perm.
    apply norm_axes_map in Ha as [Ia ->]. apply norm_axes_map in Hb as [Ib ->].
    set (ga := fun z => Z.to_nat (norm_axis (rank a) z)) in *. set (gb := fun z => Z.to_nat (norm_axis (rank b) z)) in *.
    destruct (@combine_maps _ _ za zb Hl) as [F1 F2].
    assert (norm_axes (rank a) (map fst zp) = Ok (map ga (map fst zp))) as Na.
    { apply norm_axes_map. split; [|reflexivity]. intros z Hz. apply Ia. rewrite <- F1.
      eapply Permutation_in; [apply Permutation_map; exact Pz | exact Hz]. }
    assert (norm_axes (rank b) (map snd zp) = Ok (map gb (map snd zp))) as Nb.
    { apply norm_axes_map. split; [|reflexivity]. intros z Hz. apply Ib. rewrite <- F2.
      eapply Permutation_in; [apply Permutation_map; exact Pz | exact Hz]. }
    assert (Permutation (combine (map ga (map fst zp)) (map gb (map snd zp))) (combine (map ga za) (map gb zb))) as P.
    { assert (combine (map ga za) (map gb zb) = map (fun p => (ga (fst p), gb (snd p))) (combine za zb)) as ->
        by (rewrite <- combine_map2, F1, F2; reflexivity).
      rewrite combine_map2. apply Permutation_map. exact Pz. }
    assert (contractible a b (combine (map ga (map fst zp)) (map gb (map snd zp)))) as Hc'.
    { eapply contractible_perm; [apply Permutation_sym; exact P | exact Hc]. }
    assert (length (map ga (map fst zp)) = length (map gb (map snd zp))) as Hl' by (rewrite !map_length; reflexivity).
    destruct (finish Na Nb Hc' Hl') as (c & E & Q).
    exists c. split; [exact E|].
    eapply teq_trans; [exact Q|]. destruct (@combine_maps _ _ _ _ Hl') as [G1 G2].
    pose proof (tensordot_contraction Hc') as T. rewrite G1, G2 in T.
    eapply teq_trans; [exact T|]. apply contraction_perm. exact P.
  Qed.

  Lemma norm_axes_zs n l : (forall i, In i l -> i < n) -> norm_axes n (zs l) = Ok l.
  Proof.
    intros H. apply norm_axes_map. unfold zs, norm_axis. split.
    - intros z Hz. apply in_map_iff in Hz as [i [<- Hi]]. apply H in Hi.
      destruct (Z.of_nat i <? 0)%Z eqn:E; [apply Z.ltb_lt in E; lia | lia].
    - rewrite map_map. rewrite <- (map_id l) at 1. apply map_ext_in. intros i Hi.
      destruct (Z.of_nat i <? 0)%Z eqn:E; [apply Z.ltb_lt in E; lia | lia].
  Qed.
  Lemma norm_axes_negs n l : (forall i, In i l -> i < n) -> norm_axes n (negs n l) = Ok l.
  Proof.
    intros H. apply norm_axes_map. unfold negs, norm_axis. split.
    - intros z Hz. apply in_map_iff in Hz as [i [<- Hi]]. apply H in Hi.
      destruct (Z.of_nat i - Z.of_nat n <? 0)%Z eqn:E; [lia | apply Z.ltb_ge in E; lia].
    - rewrite map_map. rewrite <- (map_id l) at 1. apply map_ext_in. intros i Hi. apply H in Hi.
      destruct (Z.of_nat i - Z.of_nat n <? 0)%Z eqn:E; [lia | apply Z.ltb_ge in E; lia].
  Qed.

  Lemma norm_axes_names n za ax : Forall2 (names n) za ax -> norm_axes n za = Ok ax.
  Proof.
    intros H. apply norm_axes_map. induction H as [|z i za ax [Hi Hz] H [IH1 IH2]]; [split; [intros z []|reflexivity]|].
    assert (norm_axis n z = Z.of_nat i) as E.
    { unfold norm_axis. destruct (z <? 0)%Z eqn:Ez; [apply Z.ltb_lt in Ez | apply Z.ltb_ge in Ez]; lia. }
    split.
    - intros z' [<-|Hz']; [rewrite E; lia | apply IH1; exact Hz'].
    - cbn [map]. rewrite E, Nat2Z.id. f_equal. exact IH2.
  Qed.
  Lemma tensordot2_names (a b : tensor R) za zb ax bx :
    Forall2 (names (rank a)) za ax -> Forall2 (names (rank b)) zb bx -> length za = length zb ->
    contractible a b (combine ax bx) ->
    exists c, tensordot2 a b za zb = Ok c /\ teq c (contraction a b (combine ax bx)).
  Proof. intros Ha Hb. apply tensordot2_spec; apply norm_axes_names; assumption. Qed.

  Lemma contractible_ranges (a b : tensor R) ax bx :
    contractible a b (combine ax bx) -> length ax = length bx ->
    (forall i, In i ax -> i < rank a) /\ (forall i, In i bx -> i < rank b).
  Proof.
    intros (_ & _ & H) Hl. destruct (@combine_maps _ _ _ _ Hl) as [F1 F2]. split; intros i Hi.
    - rewrite <- F1 in Hi. apply in_map_iff in Hi as [[x y] [<- Hi]]. apply H in Hi. tauto.
    - rewrite <- F2 in Hi. apply in_map_iff in Hi as [[x y] [<- Hi]]. apply H in Hi. tauto.
  Qed.

  (** an integer number of axes *)
  Lemma tensordot2_int_spec (a b : tensor R) n :
    contractible a b (combine (seq (rank a - n) n) (seq 0 n)) -> n <= rank a ->
    exists c, tensordot2_int a b (Z.of_nat n) = Ok c /\
      teq c (contraction a b (combine (seq (rank a - n) n) (seq 0 n))).
  Proof.
    intros Hc Hn. unfold tensordot2_int, int_axes.
    replace ((Z.of_nat n <? 0) || (Z.of_nat (rank a) <? Z.of_nat n))%Z with false.
    2:{ symmetry. apply orb_false_iff. split; apply Z.ltb_ge; lia. }
    cbn [rbind fst snd]. rewrite Nat2Z.id. fold (zs (seq (rank a - n) n)). fold (zs (seq 0 n)).
    assert (length (seq (rank a - n) n) = length (seq 0 n)) as Hl by (rewrite !seq_length; reflexivity).
    destruct (contractible_ranges Hc Hl) as [Ra Rb].
    destruct (finish (norm_axes_zs Ra) (norm_axes_zs Rb) Hc Hl) as (c & E & Q).
    exists c. split; [exact E|]. eapply teq_trans; [exact Q|].
    destruct (@combine_maps _ _ _ _ Hl) as [G1 G2]. pose proof (tensordot_contraction Hc) as T.
    rewrite G1, G2 in T. exact T.
  Qed.
  Lemma tensordot2_int_range (a b : tensor R) z :
    (z < 0 \/ Z.of_nat (rank a) < z)%Z -> tensordot2_int a b z = Raise.
  Proof.
    intros H. unfold tensordot2_int, int_axes.
    replace ((z <? 0) || (Z.of_nat (rank a) <? z))%Z with true; [reflexivity|].
    symmetry. apply orb_true_iff. rewrite !Z.ltb_lt. exact H.
  Qed.

  (** ** numpy *)
  Lemma general_spec (a b : tensor R) za zb ax bx :
    norm_axes (rank a) za = Ok ax -> norm_axes (rank b) zb = Ok bx -> length ax = length bx ->
    contractible a b (combine ax bx) ->
    exists c, np_tensordot_general a b za zb = Ok c /\ teq c (contraction a b (combine ax bx)).
  Proof.
    intros Ha Hb Hl Hc. unfold np_tensordot_general. rewrite Ha, Hb. cbn [rbind].
    destruct (@combine_maps _ _ _ _ Hl) as [F1 F2]. pose proof (contractible_dims Hc) as Hd.
    pose proof Hc as (N1 & N2 & _). rewrite F1 in N1, Hd. rewrite F2 in N2, Hd.
    destruct (contractible_ranges Hc Hl) as [Ra Rb].
    replace (list_eqb _ _) with true by (symmetry; apply list_eqb_spec; exact Hd).
    replace (is_permb (rank a) _) with true by (symmetry; apply is_permb_spec, free_axes_perm; assumption).
    replace (is_permb (rank b) _) with true by (symmetry; apply is_permb_spec, free_axes_perm; assumption).
    cbn [andb]. eexists. split; [reflexivity|]. pose proof (tensordot_contraction Hc) as T.
    rewrite F1, F2 in T. exact T.
  Qed.

  Lemma put_label_length i v l : length (put_label i v l) = length l.
  Proof. revert i. induction l; destruct i; cbn; auto. Qed.
  Lemma put_label_nth i v l k : k < length l ->
    nth k (put_label i v l) None = if k =? i then Some v else nth k l None.
  Proof.
    revert i k. induction l as [|x r IH]; intros i k Hk; [cbn in Hk; lia|].
    destruct i, k; cbn; try reflexivity. apply IH. cbn in Hk. lia.
  Qed.
  Lemma put_fold_length ps acc : length (fold_left (fun acc jl => put_label (fst jl) (snd jl) acc) ps acc) = length acc.
  Proof. revert acc. induction ps as [|[i v] r IH]; cbn; intros; [reflexivity|]. rewrite IH. apply put_label_length. Qed.
  Lemma put_fold_nth bx : forall s acc k, NoDup bx -> k < length acc ->
    nth k (fold_left (fun acc jl => put_label (fst jl) (snd jl) acc) (combine bx (seq s (length bx))) acc) None =
    if in_dec Nat.eq_dec k bx then Some (s + nindex k bx) else nth k acc None.
  Proof.
    induction bx as [|j r IH]; intros s acc k HN Hk; [reflexivity|].
    inversion HN; subst. cbn [length seq combine fold_left fst snd].
    rewrite IH by (try rewrite put_label_length; assumption).
    rewrite put_label_nth by exact Hk. cbn [index_of].
    destruct (Nat.eq_dec k j) as [->|Hne].
    - destruct (in_dec Nat.eq_dec j r); [contradiction|].
      rewrite Nat.eqb_refl. destruct (in_dec Nat.eq_dec j (j :: r)) as [|Hq]; [|exfalso; apply Hq; left; reflexivity].
      f_equal. lia.
    - destruct (in_dec Nat.eq_dec k r) as [Hi|Hi]; destruct (in_dec Nat.eq_dec k (j :: r)) as [Hi'|Hi'].
      + f_equal. lia.
      + exfalso. apply Hi'. right. exact Hi.
      + destruct Hi' as [E|E]; [congruence | contradiction].
      + apply Nat.eqb_neq in Hne. rewrite Hne. reflexivity.
  Qed.
  Lemma all_some_map l : all_some (map Some l) = Ok l.
  Proof. induction l; cbn; [reflexivity|]. rewrite IHl. reflexivity. Qed.

  Lemma inv_perm_map p : is_perm (length p) p -> inv_perm p = map (fun i => nindex i p) (seq 0 (length p)).
  Proof. intros H. destruct (inv_perm_spec p) as [E|E]; [exact E | contradiction]. Qed.

  Lemma StronglySorted_shift c n s : StronglySorted (fun x y => Z.leb x y = true) (map (fun i => Z.of_nat i - c)%Z (seq s n)).
  Proof.
    revert s. induction n; intros s; cbn [seq map]; constructor; [apply IHn|].
    apply Forall_forall. intros z Hz. apply in_map_iff in Hz as [i [<- Hi]]. apply in_seq in Hi. apply Z.leb_le. lia.
  Qed.
  Lemma zindex_shift c i l : zindex (Z.of_nat i - c)%Z (map (fun i => Z.of_nat i - c)%Z l) = nindex i l.
  Proof.
    unfold zindex. induction l as [|x r IH]; [reflexivity|]. cbn [map index_of].
    destruct (Z.eq_dec _ _); destruct (Nat.eq_dec i x); try reflexivity; try (exfalso; lia). f_equal. exact IH.
  Qed.

  (** inner product of all axes, axes counted from the beginning ([c = 0]) or the end ([c = n]) *)
  Lemma inner_spec letters (a b : tensor R) (c : Z) ax bx n :
    rank a = n -> rank b = n -> is_perm n ax -> is_perm n bx -> 0 < n -> n <= letters ->
    gather 0 (shape a) ax = gather 0 (shape b) bx ->
    (c = 0 \/ c = Z.of_nat n)%Z ->
    exists d, np_tensordot letters a b (map (fun i => Z.of_nat i - c)%Z ax) (map (fun i => Z.of_nat i - c)%Z bx) = Ok d /\
      teq d (tensordot a b ax bx).
  Proof.
    intros Ra Rb Pa Pb Hn Hlet Hd Hc.
    set (za := map (fun i => Z.of_nat i - c)%Z ax). set (zb := map (fun i => Z.of_nat i - c)%Z bx).
    assert (length za = n) as La by (unfold za; rewrite map_length; apply (is_perm_length Pa)).
    assert (length zb = n) as Lb by (unfold zb; rewrite map_length; apply (is_perm_length Pb)).
    unfold np_tensordot. rewrite La, Lb, Ra, Rb, Nat.eqb_refl. cbn [andb negb].
    assert (NoDup za) as Nz.
    { unfold za. apply FinFun.Injective_map_NoDup; [intros x y; lia | apply (is_perm_NoDup Pa)]. }
    assert (zsort (filter (fun i => zmem i zb) (nodup Z.eq_dec za)) = map (fun i => Z.of_nat i - c)%Z (seq 0 n)) as Eu.
    { rewrite nodup_fixed_point by exact Nz.
      apply (@sorted_unique Z (fun x y => Z.leb x y = true)).
      - intros x y H1 H2. apply Z.leb_le in H1, H2. lia.
      - apply sort_sorted; intros x y; [|intros z]; rewrite ?Z.leb_le; lia.
      - apply StronglySorted_shift.
      - unfold zsort. rewrite sort_perm.
        replace (filter (fun i => zmem i zb) za) with za.
        + unfold za. apply Permutation_map. exact Pa.
        + symmetry. assert (forall l, (forall z, In z l -> zmem z zb = true) -> filter (fun i => zmem i zb) l = l) as F.
          { induction l as [|x r IH]; intros H; [reflexivity|]. cbn. rewrite H by (left; reflexivity). f_equal.
            apply IH. intros; apply H; right; assumption. }
          apply F. intros z Hz. unfold zmem. destruct (in_dec Z.eq_dec z zb) as [|H]; [reflexivity|].
          exfalso. apply H. unfold za in Hz. apply in_map_iff in Hz as [i [<- Hi]].
          unfold zb. apply in_map_iff. exists i. split; [reflexivity|].
          apply (@is_perm_In _ _ i Pb). apply (@is_perm_In _ _ i Pa). exact Hi. }
    rewrite Eu, map_map, !map_length, !seq_length.
    rewrite (map_ext _ (fun i => nindex i ax)) by (intros; unfold za; apply zindex_shift).
    rewrite (Nat.min_r letters n) by exact Hlet.
    assert (is_perm (length ax) ax) as Pa' by (rewrite (is_perm_length Pa); exact Pa).
    assert (is_perm (length bx) bx) as Pb' by (rewrite (is_perm_length Pb); exact Pb).
    pose proof (inv_perm_map Pa') as Ia. pose proof (inv_perm_map Pb') as Ib.
    rewrite (is_perm_length Pa) in Ia. rewrite (is_perm_length Pb) in Ib.
    rewrite <- Ia.
    assert (forallb (fun p => p <? n) (inv_perm ax) = true) as Ef.
    { apply forallb_forall. intros p Hp. apply Nat.ltb_lt. apply (@is_perm_In n (inv_perm ax) p); [apply is_perm_inv; exact Pa | exact Hp]. }
    rewrite Ef. cbn [negb]. replace (n =? 0) with false by (symmetry; apply Nat.eqb_neq; lia).
    rewrite Nat.eqb_refl. cbn [negb].
    assert (norm_axes n zb = Ok bx) as Nb.
    { destruct Hc as [-> | ->].
      - unfold zb. rewrite (map_ext _ Z.of_nat) by (intros; lia). apply norm_axes_zs.
        intros i Hi. apply (@is_perm_In _ _ i Pb). exact Hi.
      - apply norm_axes_negs. intros i Hi. apply (@is_perm_In _ _ i Pb). exact Hi. }
    rewrite Nb. cbn [rbind].
    assert (fold_left (fun acc jl => put_label (fst jl) (snd jl) acc) (combine bx (seq 0 n)) (repeat None n) = map Some (inv_perm bx)) as El.
    { apply nth_ext with (d := None) (d' := None).
      - rewrite put_fold_length, repeat_length, map_length, Ib, map_length, seq_length. reflexivity.
      - rewrite put_fold_length, repeat_length. intros k Hk.
        rewrite <- (is_perm_length Pb) at 1.
        rewrite put_fold_nth by (try rewrite repeat_length; try apply (is_perm_NoDup Pb); assumption).
        rewrite Ib. rewrite map_map.
        rewrite (@nth_map_lt _ _ _ _ _ _ 0) by (rewrite seq_length; exact Hk).
        rewrite seq_nth by exact Hk. cbn [Nat.add].
        destruct (in_dec Nat.eq_dec k bx) as [H|H]; [reflexivity|].
        exfalso. apply H. apply (@is_perm_In _ _ k Pb). exact Hk. }
    rewrite El, all_some_map. cbn [rbind]. unfold einsum_inner.
    assert (length (inv_perm ax) = n) as L1 by (rewrite Ia, map_length, seq_length; reflexivity).
    assert (length (inv_perm bx) = n) as L2 by (rewrite Ib, map_length, seq_length; reflexivity).
    pose proof (is_perm_inv Pa) as Ja. pose proof (is_perm_inv Pb) as Jb.
    assert (forall (t : tensor R) p, rank t = n -> is_perm n p -> unperm 0 (inv_perm p) (shape t) = gather 0 (shape t) p) as Eg.
    { intros t p Ht Hp. set (w := gather 0 (shape t) p).
      assert (length w = n) as Lw by (unfold w; rewrite gather_length; apply (is_perm_length Hp)).
      assert (shape t = gather 0 w (inv_perm p)) as Es.
      { rewrite <- (@unperm_inv _ 0 0) by (rewrite Lw; exact Hp).
        unfold w. rewrite unperm_gather; [reflexivity|]. change (length (shape t)) with (rank t). rewrite Ht. exact Hp. }
      rewrite Es. apply unperm_gather. rewrite Lw. apply is_perm_inv. exact Hp. }
    rewrite (Eg a ax Ra Pa), (Eg b bx Rb Pb), L1, L2, Ra, Rb, Nat.eqb_refl. cbn [andb].
    replace (is_permb n (inv_perm ax)) with true by (symmetry; apply is_permb_spec; exact Ja).
    replace (is_permb n (inv_perm bx)) with true by (symmetry; apply is_permb_spec; exact Jb).
    replace (list_eqb _ _) with true by (symmetry; apply list_eqb_spec; exact Hd). cbn [andb].
    eexists. split; [reflexivity|].
    assert (forall p, is_perm n p -> free_axes n p = []) as Fr.
    { intros p Hp. destruct (free_axes n p) as [|x r] eqn:E; [reflexivity|].
      assert (In x (free_axes n p)) as Hx by (rewrite E; left; reflexivity).
      apply In_free_axes in Hx as [H1 H2]. exfalso. apply H2. apply (@is_perm_In _ _ x Hp). exact H1. }
    split; [unfold tensordot; cbn [shape]; rewrite Ra, Rb, (Fr ax Pa), (Fr bx Pb); reflexivity|].
    intros ix Hix. inversion Hix; subst ix. unfold tensordot. cbn [elt]. rewrite Ra, Rb, (Fr ax Pa), (Fr bx Pb).
    cbn [firstn skipn length app]. apply lsum_ext. intros v Hv. apply In_idxs in Hv.
    apply valid_length in Hv. rewrite gather_length, (is_perm_length Pa) in Hv.
    rewrite <- (@unperm_inv _ 0 0 ax v), <- (@unperm_inv _ 0 0 bx v) by (rewrite Hv; assumption). reflexivity.
  Qed.

  Lemma is_perm_full n l : NoDup l -> length l = n -> (forall i, In i l -> i < n) -> is_perm n l.
  Proof. intros; apply is_perm_intro; assumption. Qed.

  Lemma np_tensordot_shift letters (a b : tensor R) ax bx (ca cb : Z) :
    contractible a b (combine ax bx) -> length ax = length bx ->
    (ca = 0 /\ cb = 0 \/ ca = Z.of_nat (rank a) /\ cb = Z.of_nat (rank b))%Z ->
    (length ax = rank a -> length bx = rank b -> 0 < rank a <= letters) ->
    exists c, np_tensordot letters a b (map (fun i => Z.of_nat i - ca)%Z ax) (map (fun i => Z.of_nat i - cb)%Z bx) = Ok c /\
      teq c (contraction a b (combine ax bx)).
  Proof.
    intros Hc Hl Hs Hfull. destruct (contractible_ranges Hc Hl) as [Ra Rb].
    destruct (@combine_maps _ _ _ _ Hl) as [F1 F2].
    destruct ((length ax =? rank a) && (length bx =? rank b)) eqn:E.
    - apply andb_true_iff in E as [E1 E2]. apply Nat.eqb_eq in E1, E2. specialize (Hfull E1 E2).
      pose proof (contractible_dims Hc) as Hd. pose proof Hc as (N1 & N2 & _). rewrite F1 in Hd, N1. rewrite F2 in Hd, N2.
      assert (rank b = rank a) as Er by congruence.
      assert (ca = cb) as -> by (rewrite Er in Hs; lia).
      destruct (@inner_spec letters a b cb ax bx (rank a) eq_refl Er) as (d & Ed & Qd); try tauto.
      + apply is_perm_full; assumption.
      + apply is_perm_full; try assumption; [congruence|]. intros i Hi. rewrite <- Er. apply Rb. exact Hi.
      + exists d. split; [exact Ed|]. eapply teq_trans; [exact Qd|].
        pose proof (tensordot_contraction Hc) as T. rewrite F1, F2 in T. exact T.
    - unfold np_tensordot. rewrite !map_length, E.
      assert (norm_axes (rank a) (map (fun i => Z.of_nat i - ca)%Z ax) = Ok ax) as Na.
      { destruct Hs as [[-> _]|[-> _]]; [|apply norm_axes_negs; exact Ra].
        rewrite (map_ext _ Z.of_nat) by (intros; lia). apply norm_axes_zs. exact Ra. }
      assert (norm_axes (rank b) (map (fun i => Z.of_nat i - cb)%Z bx) = Ok bx) as Nb.
      { destruct Hs as [[_ ->]|[_ ->]]; [|apply norm_axes_negs; exact Rb].
        rewrite (map_ext _ Z.of_nat) by (intros; lia). apply norm_axes_zs. exact Rb. }
      exact (general_spec Na Nb Hl Hc).
  Qed.

  Lemma np_tensordot_nonneg letters (a b : tensor R) ax bx :
    contractible a b (combine ax bx) -> length ax = length bx ->
    (length ax = rank a -> length bx = rank b -> 0 < rank a <= letters) ->
    exists c, np_tensordot letters a b (zs ax) (zs bx) = Ok c /\ teq c (contraction a b (combine ax bx)).
  Proof.
    intros Hc Hl Hf. destruct (@np_tensordot_shift letters a b ax bx 0%Z 0%Z Hc Hl) as (c & E & Q); [left; auto | exact Hf|].
    exists c. split; [|exact Q]. unfold zs.
    assert (forall l, map Z.of_nat l = map (fun i => Z.of_nat i - 0)%Z l) as -> by (intros; apply map_ext; intros; lia).
    assert (map Z.of_nat bx = map (fun i => Z.of_nat i - 0)%Z bx) as -> by (apply map_ext; intros; lia). exact E.
  Qed.
  Lemma np_tensordot_negative letters (a b : tensor R) ax bx :
    contractible a b (combine ax bx) -> length ax = length bx ->
    (length ax = rank a -> length bx = rank b -> 0 < rank a <= letters) ->
    exists c, np_tensordot letters a b (negs (rank a) ax) (negs (rank b) bx) = Ok c /\ teq c (contraction a b (combine ax bx)).
  Proof.
    intros Hc Hl Hf. apply np_tensordot_shift; auto.
  Qed.
End Main.
