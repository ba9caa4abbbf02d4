(** * BlockDegen: fused charge degeneracies, unique fused charges, number of stored entries *)
From Coq Require Import Sorting.Sorted Permutation.
From Verif Require Import Prelude Algebra Tensor TensorFacts Res Charge ChargeFacts BlockSparse BlockSpec ListFacts BlockFacts.
Set Implicit Arguments.
Unset Strict Implicit.

(** ** sums of naturals *)
Lemma nsumf_app A (f : A -> nat) l l' : nsumf f (l ++ l') = nsumf f l + nsumf f l'.
Proof. unfold nsumf. rewrite map_app. apply list_sum_app. Qed.
Lemma nsumf_ext A (f g : A -> nat) l : (forall x, In x l -> f x = g x) -> nsumf f l = nsumf g l.
Proof. intros H. unfold nsumf. f_equal. apply map_ext_in, H. Qed.
Lemma nsumf_perm A (f : A -> nat) l l' : Permutation l l' -> nsumf f l = nsumf f l'.
Proof. induction 1; rewrite ?nsumf_cons in *; cbn; try lia; reflexivity. Qed.
Lemma nsumf_flat_map A B (f : B -> nat) (g : A -> list B) l : nsumf f (flat_map g l) = nsumf (fun x => nsumf f (g x)) l.
Proof. induction l; [reflexivity|]. cbn [flat_map]. rewrite nsumf_app, nsumf_cons, IHl. reflexivity. Qed.
Lemma nsumf_map A B (f : B -> nat) (g : A -> B) l : nsumf f (map g l) = nsumf (fun x => f (g x)) l.
Proof. unfold nsumf. rewrite map_map. reflexivity. Qed.
Lemma nsumf_0 A (f : A -> nat) l : (forall x, In x l -> f x = 0) -> nsumf f l = 0.
Proof.
  induction l as [|x r IH]; intros H; [reflexivity|]. rewrite nsumf_cons, (H x), IH; auto using in_eq.
  intros; apply H; right; assumption.
Qed.
Lemma nsumf_plus A (f g : A -> nat) l : nsumf (fun x => f x + g x) l = nsumf f l + nsumf g l.
Proof. induction l; [reflexivity|]. rewrite !nsumf_cons, IHl. lia. Qed.
Lemma nsumf_scal A (f : A -> nat) k l : nsumf (fun x => k * f x) l = k * nsumf f l.
Proof. induction l; [cbn; lia|]. rewrite !nsumf_cons, IHl. lia. Qed.
Lemma length_filter_nsumf A (p : A -> bool) l : length (filter p l) = nsumf (fun x => if p x then 1 else 0) l.
Proof. induction l; [reflexivity|]. rewrite nsumf_cons. cbn. destruct (p a); cbn; rewrite IHl; reflexivity. Qed.
Lemma nsumf_single A (dec : forall x y : A, {x = y} + {x <> y}) (f : A -> nat) a l : NoDup l ->
  nsumf (fun x => if dec x a then f x else 0) l = if in_dec dec a l then f a else 0.
Proof.
  induction l as [|x r IH]; intros H; [reflexivity|]. inversion H as [|? ? Hx Hr]; subst.
  rewrite nsumf_cons, (IH Hr). destruct (dec x a) as [<-|N].
  - destruct (in_dec dec x r) as [Hi|_]; [contradiction|].
    destruct (in_dec dec x (x :: r)) as [_|Hn]; [lia | exfalso; apply Hn; left; reflexivity].
  - destruct (in_dec dec a r) as [Hi|Hn]; destruct (in_dec dec a (x :: r)) as [Hi'|Hn']; try reflexivity.
    + exfalso. apply Hn'. right. exact Hi.
    + exfalso. destruct Hi' as [->|Hi']; [apply N; reflexivity | apply Hn, Hi'].
Qed.
Lemma count_occ_nsumf A (dec : forall x y : A, {x = y} + {x <> y}) l a :
  count_occ dec l a = nsumf (fun x => if dec x a then 1 else 0) l.
Proof. induction l; [reflexivity|]. cbn [count_occ]. rewrite nsumf_cons. destruct (dec a0 a); rewrite IHl; reflexivity. Qed.
(** a sum over a list, grouped by value *)
Lemma nsumf_group A (dec : forall x y : A, {x = y} + {x <> y}) (f : A -> nat) u l : NoDup u ->
  (forall x, In x l -> In x u) -> nsumf f l = nsumf (fun a => count_occ dec l a * f a) u.
Proof.
  intros Hu. induction l as [|x r IH]; intros H.
  - cbn. symmetry. apply nsumf_0. reflexivity.
  - rewrite nsumf_cons, IH by (intros; apply H; right; assumption).
    transitivity (nsumf (fun a => (if dec a x then f a else 0) + count_occ dec r a * f a) u).
    + rewrite nsumf_plus, (nsumf_single dec) by exact Hu.
      destruct (in_dec dec x u) as [_|Hn]; [reflexivity | exfalso; apply Hn, H; left; reflexivity].
    + apply nsumf_ext. intros a _. cbn [count_occ]. destruct (dec a x) as [E|N], (dec x a) as [E'|N']; try (exfalso; congruence); lia.
Qed.

(** ** run lengths of a sorted list of labels *)
Section Runs.
  Notation pairs := (list (nat * nat)).
  Fixpoint runs (acc : nat) (s : pairs) : list nat :=
    match s with
    | [] => []
    | x :: r =>
        match r with
        | [] => [acc + snd x]
        | y :: _ => if fst x =? fst y then runs (acc + snd x) r else (acc + snd x) :: runs (acc + snd x) r
        end
    end.
  Definition cuts (sl : list nat) : list nat :=
    flatnonzero (map (fun j => negb (nth j sl 0 =? nth (S j) sl 0)) (seq 0 (length sl - 1))).
  Lemma cuts_cons x y r : cuts (x :: y :: r) = (if x =? y then [] else [0]) ++ map S (cuts (y :: r)).
  Proof.
    unfold cuts. cbn [length]. replace (S (S (length r)) - 1) with (S (S (length r) - 1)) by lia.
    cbn [seq map]. rewrite flatnonzero_cons. cbn [nth]. rewrite <- seq_shift, map_map.
    destruct (x =? y); reflexivity.
  Qed.
  Lemma runs_spec acc s : s <> [] ->
    gather 0 (cumsum_from acc (map snd s)) (cuts (map fst s)) ++ [last (cumsum_from acc (map snd s)) 0] = runs acc s.
  Proof.
    revert acc. induction s as [|x r IH]; intros acc H; [congruence|].
    destruct r as [|y r']; [reflexivity|].
    change (cuts (map fst (x :: y :: r'))) with (cuts (fst x :: fst y :: map fst r')). rewrite cuts_cons.
    rewrite gather_app, <- app_assoc.
    assert (forall ks a (l : list nat), gather 0 (a :: l) (map S ks) = gather 0 l ks) as Hg
      by (intros; unfold gather; rewrite map_map; reflexivity).
    cbn [map cumsum_from]. rewrite Hg.
    specialize (IH (acc + snd x) ltac:(discriminate)). cbn [map cumsum_from] in IH.
    change (last (acc + snd x :: (acc + snd x + snd y) :: ?z) 0) with (last ((acc + snd x + snd y) :: z) 0).
    rewrite IH. cbn [runs]. destruct (fst x =? fst y); reflexivity.
  Qed.
  Definition lab_sum (s : pairs) (k : nat) : nat := nsumf (fun x => if fst x =? k then snd x else 0) s.
  Definition diffs (a : nat) (l : list nat) : list nat := map (fun ab => fst ab - snd ab) (combine l (a :: l)).
  Lemma diffs_cons a x l : diffs a (x :: l) = (x - a) :: diffs x l.
  Proof. reflexivity. Qed.
  Lemma runs_diffs s : forall a0 acc k m, s <> [] -> StronglySorted le (map fst s) -> hd 0 (map fst s) = k ->
    (forall i, In i (map fst s) <-> k <= i < k + m) -> a0 <= acc ->
    diffs a0 (runs acc s) = match map (lab_sum s) (seq k m) with [] => [] | h :: t => (acc - a0 + h) :: t end.
  Proof.
    induction s as [|x r IH]; intros a0 acc k m Hne Hs Hk Hin Ha; [congruence|].
    cbn in Hk. destruct x as [k' d]. cbn in Hk. subst k'.
    assert (m <> 0) as Hm. { intros ->. destruct (Hin k) as [H _]. cbn in H. specialize (H (or_introl eq_refl)). lia. }
    destruct m as [|m]; [congruence|].
    assert (forall j, j <> k -> lab_sum ((k, d) :: r) j = lab_sum r j) as Hother.
    { intros j Hj. unfold lab_sum. rewrite nsumf_cons. cbn [fst snd]. destruct (Nat.eqb_spec k j); [congruence|reflexivity]. }
    assert (lab_sum ((k, d) :: r) k = d + lab_sum r k) as Hsame.
    { unfold lab_sum. rewrite nsumf_cons. cbn [fst snd]. rewrite Nat.eqb_refl. reflexivity. }
    cbn [map] in Hs. inversion Hs as [|? ? Hr Hall]; subst.
    assert (map (lab_sum ((k, d) :: r)) (seq (S k) m) = map (lab_sum r) (seq (S k) m)) as Htail.
    { apply map_ext_in. intros j Hj. apply in_seq in Hj. apply Hother. lia. }
    cbn [seq]. cbn [map].
    destruct r as [|[l' d'] r'].
    - cbn [runs fst snd]. rewrite diffs_cons. cbn [diffs combine map].
      assert (m = 0) as ->. { destruct m; [reflexivity|]. exfalso. destruct (Hin (S k)) as [_ H]. cbn in H. destruct H as [H|[]]; lia. }
      cbn [seq map]. rewrite Hsame. cbn. f_equal. lia.
    - change (runs acc ((k, d) :: (l', d') :: r')) with
        (if k =? l' then runs (acc + d) ((l', d') :: r') else (acc + d) :: runs (acc + d) ((l', d') :: r')).
      destruct (Nat.eqb_spec k l') as [E|N].
      + subst l'. rewrite (IH a0 (acc + d) k (S m)); try assumption; try discriminate; try reflexivity; try lia.
        * cbn [seq]. rewrite map_cons, Htail, Hsame. f_equal. lia.
        * intros i. rewrite <- Hin. cbn. tauto.
      + assert (k < l') as Hlt. { rewrite Forall_forall in Hall. specialize (Hall l' (or_introl eq_refl)). lia. }
        assert (l' < k + S m) as Hl' by (apply Hin; right; left; reflexivity).
        assert (l' = S k) as ->.
        { assert (In (S k) (map fst ((k, d) :: (l', d') :: r'))) as Hi by (apply Hin; lia).
          destruct Hi as [Hi|[Hi|Hi]]; cbn in Hi; try lia.
          inversion Hr as [|? ? _ Hall']; subst. rewrite Forall_forall in Hall'. specialize (Hall' _ Hi). lia. }
        rewrite diffs_cons, (IH (acc + d) (acc + d) (S k) m); try assumption; try discriminate; try reflexivity; try lia.
        * rewrite Htail.
          assert (lab_sum ((S k, d') :: r') k = 0) as Hz.
          { apply nsumf_0. intros [j e] Hj. cbn [fst snd]. destruct (Nat.eqb_spec j k); [|reflexivity].
            exfalso. subst j. destruct Hj as [Hj|Hj]; [injection Hj; lia|].
            inversion Hr as [|? ? _ Hall']; subst. rewrite Forall_forall in Hall'.
            specialize (Hall' k (in_map fst _ _ Hj)). lia. }
          rewrite Hsame, Hz. f_equal; [lia|].
          destruct m; [lia|]. cbn [seq map]. f_equal. lia.
        * intros i. split.
          -- intros Hi. split; [|assert (k <= i < k + S m) by (apply Hin; right; exact Hi); lia].
             destruct Hi as [<-|Hi]; [cbn; lia|]. inversion Hr as [|? ? _ Hall']; subst.
             rewrite Forall_forall in Hall'. exact (Hall' i Hi).
          -- intros Hi. destruct (Hin i) as [_ H]. destruct H as [H|H]; [lia | cbn in H; lia | exact H].
  Qed.
End Runs.

Section Degens.
  Context {G : chg}.
  Notation bc := (bc G).
  Implicit Types (ls l : list (leg G)) (cs : list bc) (fs : list bool) (q x y : G).

  (** degeneracies of a fused list *)
  Lemma count_fuse2 (FL FR lu ru : list G) x : NoDup lu -> NoDup ru ->
    (forall a, In a FL -> In a lu) -> (forall b, In b FR -> In b ru) ->
    count_occ qdec (fuse2 FL FR) x =
    nsumf (fun a => nsumf (fun b => if qdec (qop a b) x then count_occ qdec FL a * count_occ qdec FR b else 0) ru) lu.
  Proof.
    intros Hl Hr HL HR. rewrite count_occ_nsumf. unfold fuse2. rewrite nsumf_flat_map.
    rewrite (@nsumf_group _ qdec _ lu) by assumption. apply nsumf_ext. intros a _.
    rewrite nsumf_map, (@nsumf_group _ qdec _ ru) by assumption.
    rewrite <- nsumf_scal. apply nsumf_ext. intros b _. destruct (qdec (qop a b) x); lia.
  Qed.
  Lemma In_fuse2 (a b : list G) x : In x (fuse2 a b) <-> exists y z, In y a /\ In z b /\ x = qop y z.
  Proof.
    unfold fuse2. rewrite in_flat_map. split.
    - intros (y & Hy & H). apply in_map_iff in H. destruct H as (z & <- & Hz). eauto.
    - intros (y & z & Hy & Hz & ->). exists y. split; [exact Hy|]. apply in_map, Hz.
  Qed.

  Lemma big_degens (FL FR lu ru : list G) : NoDup lu -> NoDup ru ->
    (forall a, In a lu <-> In a FL) -> (forall b, In b ru <-> In b FR) -> FL <> [] -> FR <> [] ->
    let comb := fuse2 lu ru in
    let u := uniq comb in
    let deg := fuse_degeneracies (map (count_occ qdec FL) lu) (map (count_occ qdec FR) ru) in
    let sorted := sort (fun a b => fst a <=? fst b) (combine (inverse comb) deg) in
    let all := cumsum (map snd sorted) in
    let cum := gather 0 all (cuts (map fst sorted)) in
    all <> [] /\
    map (fun ab => fst ab - snd ab) (combine (cum ++ [last all 0]) (0 :: cum)) = map (count_occ qdec (fuse2 FL FR)) u.
  Proof.
    intros Hl Hr HL HR NL NR comb u deg sorted all cum.
    set (C := flat_map (fun a => map (fun b => (a, b)) ru) lu).
    assert (comb = map (fun ab => qop (fst ab) (snd ab)) C) as Ecomb.
    { unfold comb, C, fuse2. rewrite map_flat_map. apply flat_map_ext_in. intros a _. rewrite map_map. reflexivity. }
    assert (deg = map (fun ab => count_occ qdec FL (fst ab) * count_occ qdec FR (snd ab)) C) as Edeg.
    { unfold deg, C, fuse_degeneracies. rewrite map_flat_map, flat_map_map. apply flat_map_ext_in. intros a _.
      rewrite !map_map. reflexivity. }
    set (f := fun ab : G * G => (index_of qdec (qop (fst ab) (snd ab)) u, count_occ qdec FL (fst ab) * count_occ qdec FR (snd ab))).
    assert (combine (inverse comb) deg = map f C) as EP.
    { unfold inverse. fold u. rewrite Ecomb at 1. rewrite Edeg, map_map. clear.
      induction C as [|x r IH]; [reflexivity|]. cbn [map combine]. f_equal. exact IH. }
    assert (Permutation sorted (map f C)) as Hperm by (unfold sorted; rewrite EP; apply sort_perm).
    assert (comb <> []) as Hcne.
    { destruct FL as [|a FL']; [congruence|]. destruct FR as [|b FR']; [congruence|]. intros E.
      assert (In (qop a b) comb) as Hi; [|rewrite E in Hi; exact Hi].
      apply In_fuse2. exists a, b. split; [apply HL; left; reflexivity|]. split; [apply HR; left; reflexivity|reflexivity]. }
    assert (sorted <> []) as Hsne.
    { intros E. rewrite E in Hperm. apply Permutation_nil in Hperm. apply map_eq_nil in Hperm.
      rewrite Hperm in Ecomb. apply Hcne, Ecomb. }
    split.
    { unfold all, cumsum. intros E. apply (f_equal (@length nat)) in E. rewrite cumsum_from_length, map_length in E.
      destruct sorted; [congruence | discriminate]. }
    assert (forall i, In i (map fst sorted) <-> 0 <= i < 0 + length u) as Hin.
    { intros i. rewrite in_map_iff. split.
      - intros (p & <- & Hp). split; [lia|]. apply (Permutation_in _ Hperm) in Hp. apply in_map_iff in Hp.
        destruct Hp as (ab & <- & Hab). cbn [fst f]. apply index_of_lt. apply In_uniq. rewrite Ecomb.
        apply (in_map (fun ab => qop (fst ab) (snd ab))), Hab.
      - intros [_ Hi]. cbn in Hi.
        assert (In (nth i u qid) comb) as Hc by (apply In_uniq, nth_In, Hi).
        rewrite Ecomb in Hc. apply in_map_iff in Hc. destruct Hc as (ab & Eab & Hab).
        exists (f ab). split.
        + cbn. rewrite Eab. apply index_of_nth; [apply NoDup_uniq | exact Hi].
        + apply (Permutation_in _ (Permutation_sym Hperm)), in_map, Hab. }
    assert (StronglySorted le (map fst sorted)) as Hss.
    { assert (StronglySorted (fun a b : nat * nat => (fst a <=? fst b) = true) sorted) as H.
      { apply sort_sorted; intros; rewrite ?Nat.leb_le in *; lia. }
      clear -H. induction H as [|p s _ IH Hp]; cbn; constructor; [exact IH|].
      apply Forall_map. eapply Forall_impl; [|exact Hp]. intros a Ha. apply Nat.leb_le, Ha. }
    assert (hd 0 (map fst sorted) = 0) as Hhd.
    { destruct u as [|x u'] eqn:Eu.
      - exfalso. destruct comb as [|y r]; [congruence|].
        assert (In y (uniq (y :: r))) as Hy by (apply In_uniq; left; reflexivity).
        fold u in Hy. rewrite Eu in Hy. exact Hy.
      - destruct (Hin 0) as [_ H0]. specialize (H0 ltac:(cbn; lia)).
        destruct (map fst sorted) as [|k r]; [reflexivity|]. cbn.
        inversion Hss as [|? ? _ Hall]; subst. destruct H0 as [E0|Hi]; [exact E0|].
        rewrite Forall_forall in Hall. specialize (Hall 0 Hi). lia. }
    transitivity (diffs 0 (runs 0 sorted)).
    { rewrite <- (@runs_spec 0 sorted Hsne). fold (cumsum (map snd sorted)). fold all. fold cum. unfold diffs. f_equal.
      assert (forall (c : list nat) a z, combine (c ++ [z]) (a :: c) = combine (c ++ [z]) (a :: c ++ [z])) as Hc.
      { clear. induction c as [|x r IH]; intros a z; [reflexivity|]. cbn [app combine]. f_equal. apply IH. }
      apply Hc. }
    rewrite (@runs_diffs sorted 0 0 0 (length u)); try assumption; try lia.
    transitivity (map (lab_sum sorted) (seq 0 (length u))).
    { destruct (map (lab_sum sorted) (seq 0 (length u))); [reflexivity|]. f_equal. }
    rewrite (@map_seq_nth _ _ (count_occ qdec (fuse2 FL FR)) u qid). apply map_ext_in. intros k Hk. apply in_seq in Hk.
    unfold lab_sum. rewrite (nsumf_perm _ Hperm), nsumf_map.
    rewrite (@count_fuse2 FL FR lu ru) by (try assumption; intros; try apply HL; try apply HR; assumption).
    unfold C. rewrite nsumf_flat_map. apply nsumf_ext. intros a Ha. rewrite nsumf_map. apply nsumf_ext. intros b Hb.
    cbn [fst snd f].
    assert (In (qop a b) u) as Hab by (apply In_uniq, In_fuse2; eauto).
    destruct (qdec (qop a b) (nth k u qid)) as [E|N].
    - rewrite E, index_of_nth, Nat.eqb_refl by (try apply NoDup_uniq; lia). reflexivity.
    - destruct (Nat.eqb_spec (index_of qdec (qop a b) u) k) as [E|_]; [|reflexivity].
      exfalso. apply N. rewrite <- E. symmetry. apply nth_index_of, Hab.
  Qed.

  Definition degens_of (l : list G) (u : bc) (n : list nat) : Prop :=
    bc_ok u /\ rep u = uniques u /\ NoDup (rep u) /\ (forall x, In x (rep u) <-> In x l) /\
    n = map (count_occ qdec l) (rep u).
  Lemma bunique_degens c : bc_ok c -> let '(u, _, n) := bunique c in degens_of (rep c) u n /\ uniques u = uniques c.
  Proof.
    intros H. pose proof (bunique_spec H) as S. destruct (bunique c) as [[u inv] n].
    destruct S as (H1 & H2 & H3 & H4 & H5 & _ & _ & H6). split; [|exact H4].
    unfold degens_of. rewrite H3 in *. split; [exact H1|]. split; [congruence|]. split; [exact H2|]. split; [exact H5|exact H6].
  Qed.
  (** the uniques of the degeneracies and of the fused charges are the same list *)
  Definition fused_uniques cs fs (u : list G) : Prop :=
    match cs, fs with [c], [f] => u = uniques (dual c f) | _, _ => u = uniq (charges_of (legs cs fs)) end.
  Lemma fused_uniques_fuse cs fs c u : all_ok cs -> length cs = length fs -> cs <> [] ->
    fuse_charges cs fs = Ok c -> fused_uniques cs fs u <-> u = uniques c.
  Proof.
    intros Hok E Hne Hc. destruct (fuse_charges_spec Hok E Hne) as (c' & H1 & _ & H2 & H3).
    rewrite Hc in H1. injection H1 as <-. unfold fused_uniques.
    destruct cs as [|c1 [|c2 cs]]; destruct fs as [|f1 [|f2 fs]]; cbn in E; try discriminate; try congruence.
    - subst c. tauto.
    - rewrite <- H2. rewrite H3. cbn. tauto.
  Qed.

  Variable lim : nat.
  Hypothesis lim_pos : 0 < lim.
  Lemma fused_degens_spec cs fs : all_ok cs -> length cs = length fs -> cs <> [] ->
    exists u n, fused_degens lim cs fs = Ok (u, n) /\ degens_of (charges_of (legs cs fs)) u n /\ fused_uniques cs fs (uniques u).
  Proof.
    intros Hok E Hne. unfold fused_degens.
    destruct cs as [|c cs]; [congruence|]. destruct fs as [|f fs]; [discriminate|].
    destruct (Nat.eqb_spec (length (c :: cs)) 1) as [E1|N1].
    - destruct cs as [|c2 cs]; [|discriminate]. destruct fs as [|f2 fs]; [|discriminate].
      assert (bc_ok c) as Hc by (apply Hok; left; reflexivity).
      pose proof (bunique_degens (@dual_ok _ c f Hc)) as H. destruct (bunique (dual c f)) as [[u inv] n].
      destruct H as (H1 & H2). exists u, n. split; [reflexivity|]. split; [|exact H2].
      cbn [legs map combine]. rewrite charges_of_single by exact Hc. exact H1.
    - remember (c :: cs) as cs0 eqn:Ecs. remember (f :: fs) as fs0 eqn:Efs. cbv zeta.
      assert (2 <= length cs0) as H2 by (subst cs0; cbn in *; lia).
      assert (forall u, u = uniq (charges_of (legs cs0 fs0)) -> fused_uniques cs0 fs0 u) as Hfu.
      { intros u ->. unfold fused_uniques. subst cs0 fs0. destruct cs; [cbn in H2; lia|]. reflexivity. }
      destruct (nprod (map (fun c => bdim c) cs0) <? lim) eqn:El.
      + destruct (fuse_charges_spec Hok E Hne) as (c' & F1 & F2 & F3 & F4). rewrite F1. cbn [rbind].
        pose proof (bunique_degens F2) as H. destruct (bunique c') as [[u inv] n].
        destruct H as (H3 & H4). exists u, n. split; [reflexivity|]. split; [rewrite <- F3; exact H3|].
        rewrite (fused_uniques_fuse _ Hok E Hne F1). exact H4.
      + apply Nat.ltb_ge in El.
        destruct (@find_best_partition_ok (map (fun c => bdim c) cs0)) as (p & Ep & Hp1 & Hp2); [rewrite map_length; exact H2|].
        rewrite map_length in Hp2. rewrite Ep. cbn [rbind].
        assert (length (firstn p cs0) = length (firstn p fs0)) as EL by (rewrite !firstn_length; lia).
        assert (length (skipn p cs0) = length (skipn p fs0)) as ER by (rewrite !skipn_length; lia).
        destruct (@fuse_charges_spec _ (firstn p cs0) (firstn p fs0)) as (FL & L1 & L2 & L3 & _).
        { apply all_ok_firstn, Hok. } { exact EL. }
        { intros E0. apply (f_equal (@length bc)) in E0. rewrite firstn_length in E0. cbn in E0. lia. }
        destruct (@fuse_charges_spec _ (skipn p cs0) (skipn p fs0)) as (FR & R1 & R2 & R3 & _).
        { apply all_ok_skipn, Hok. } { exact ER. }
        { intros E0. apply (f_equal (@length bc)) in E0. rewrite skipn_length in E0. cbn in E0. lia. }
        rewrite L1. cbn [rbind]. rewrite R1. cbn [rbind].
        pose proof (bunique_degens L2) as HL. destruct (bunique FL) as [[lu linv] ldeg].
        pose proof (bunique_degens R2) as HR. destruct (bunique FR) as [[ru rinv] rdeg].
        destruct HL as ((HL1 & HL2 & HL3 & HL4 & HL5) & HL6). destruct HR as ((HR1 & HR2 & HR3 & HR4 & HR5) & HR6).
        cbn [bunique badd].
        assert (charges_of (legs cs0 fs0) = fuse2 (rep FL) (rep FR)) as Ech.
        { rewrite L3, R3, <- charges_of_app, <- legs_app, !firstn_skipn by exact EL. reflexivity. }
        assert (length (rep FL) * length (rep FR) = nprod (map (fun c => bdim c) cs0)) as Elen.
        { transitivity (length (charges_of (legs cs0 fs0))).
          - rewrite Ech. unfold fuse2. symmetry. apply flat_map_const_length. intros; apply map_length.
          - rewrite charges_of_length, ldims_legs by exact E. reflexivity. }
        destruct (@big_degens (rep FL) (rep FR) (rep lu) (rep ru)) as (B1 & B2); try assumption.
        { intros E0. rewrite E0 in Elen. cbn in Elen. lia. }
        { intros E0. rewrite E0 in Elen. cbn in Elen. lia. }
        cbv zeta in B1, B2. rewrite <- HL5, <- HR5 in B1, B2.
        match goal with |- context [match ?a with [] => Raise | _ :: _ => _ end] => set (all := a) in * end.
        destruct all as [|z zs] eqn:Eall; [congruence|].
        eexists. eexists. split; [reflexivity|].
        assert (forall x, In x (fuse2 (rep lu) (rep ru)) <-> In x (charges_of (legs cs0 fs0))) as Hset.
        { intros x. rewrite Ech, !In_fuse2. split; intros (y & w & Hy & Hw & ->); exists y, w; rewrite ?HL4, ?HR4 in *; auto. }
        split.
        * unfold degens_of. rewrite rep_Lab_seq. split; [apply Lab_seq_ok, NoDup_uniq|]. split; [reflexivity|].
          split; [apply NoDup_uniq|]. split; [intros x; rewrite In_uniq; apply Hset|].
          rewrite Ech. exact B2.
        * apply Hfu. cbn. apply uniq_ext, Hset.
  Qed.
End Degens.
