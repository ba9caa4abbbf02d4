(** * PathSolveGreedy: the greedy solvers return an order of pairs in range with its cost *)
From Coq Require Import Permutation ZArith.
From Verif Require Import Prelude Res PathSolve PathSolveSpec PathSolveAdj.
Set Implicit Arguments.
Unset Strict Implicit.

Section Min.
  Context {L : lsf}.
  Lemma argmin_from_spec (l : list L) : forall k best at_ (pre : list L), length pre = k -> at_ < k -> nth at_ pre l0 = best ->
    (forall m, m < k -> lle best (nth m pre l0) = true) -> (forall m, m < at_ -> llt best (nth m pre l0) = true) ->
    let r := argmin_from k best at_ l in
    r < k + length l /\ (forall m, m < k + length l -> lle (nth r (pre ++ l) l0) (nth m (pre ++ l) l0) = true) /\
    (forall m, m < r -> llt (nth r (pre ++ l) l0) (nth m (pre ++ l) l0) = true).
  Proof.
    induction l as [|x l IH]; intros k best at_ pre Hk Hat Hb Hmin Hfst.
    - cbn. rewrite !app_nil_r. rewrite Hb. split; [lia|]. split; [intros m Hm; apply Hmin; lia | exact Hfst].
    - cbn [argmin_from length]. replace (pre ++ x :: l) with ((pre ++ [x]) ++ l) by (rewrite <- app_assoc; reflexivity).
      replace (k + S (length l)) with (S k + length l) by lia.
      assert (forall m, m < k -> nth m (pre ++ [x]) l0 = nth m pre l0) as E1 by (intros m Hm; apply app_nth1; lia).
      assert (nth k (pre ++ [x]) l0 = x) as E2 by (rewrite app_nth2 by lia; rewrite Hk, Nat.sub_diag; reflexivity).
      destruct (llt x best) eqn:Q; apply IH; try (rewrite app_length; cbn; lia); try lia; try assumption.
      + intros m Hm. destruct (Nat.eq_dec m k) as [->|N]; [rewrite E2; apply lle_refl|]. rewrite E1 by lia. eapply lle_trans; [apply llt_le, Q | apply Hmin; lia].
      + intros m Hm. rewrite E1 by lia. eapply llt_le_trans; [exact Q | apply Hmin; lia].
      + rewrite E1 by lia. exact Hb.
      + intros m Hm. destruct (Nat.eq_dec m k) as [->|N]; [rewrite E2; apply llt_nle, Q|]. rewrite E1 by lia. apply Hmin. lia.
      + intros m Hm. rewrite E1 by lia. apply Hfst. exact Hm.
  Qed.
  Lemma argmin_spec (l : list L) : l <> [] ->
    argmin l < length l /\ (forall m, m < length l -> lle (nth (argmin l) l l0) (nth m l l0) = true) /\
    (forall m, m < argmin l -> llt (nth (argmin l) l l0) (nth m l l0) = true).
  Proof.
    destruct l as [|x l]; [congruence|]. intros _. apply (@argmin_from_spec l 1 x 0 [x]); auto; try lia.
    - intros m Hm. destruct m; [apply lle_refl | lia].
  Qed.

  Lemma lmax2_l (a b : L) : lle a (lmax2 a b) = true.
  Proof. unfold lmax2. destruct (lle a b) eqn:E; [exact E | apply lle_refl]. Qed.
  Lemma lmax2_r (a b : L) : lle b (lmax2 a b) = true.
  Proof. unfold lmax2. destruct (lle a b) eqn:E; [apply lle_refl | apply lle_tot, E]. Qed.
  Lemma lmax2_c (a b : L) : lmax2 a b = lmax2 b a.
  Proof.
    unfold lmax2. destruct (lle a b) eqn:E, (lle b a) eqn:F; try reflexivity; [apply lle_anti; assumption|].
    apply lle_tot in E. congruence.
  Qed.
  Lemma lmax2_idem (a : L) : lmax2 a a = a.
  Proof. unfold lmax2. destruct (lle a a); reflexivity. Qed.
  Lemma lmax_ge (l : list L) x : In x l -> lle x (lmax l) = true.
  Proof.
    destruct l as [|y l]; [intros []|]. cbn [lmax]. assert (forall (l : list L) (y : L), lle y (fold_left lmax2 l y) = true /\ forall x, In x l -> lle x (fold_left lmax2 l y) = true) as H.
    { clear. induction l as [|z l IH]; intros y; [split; [apply lle_refl | intros x []]|]. cbn [fold_left]. destruct (IH (lmax2 y z)) as [H1 H2]. split.
      - eapply lle_trans; [apply lmax2_l | exact H1].
      - intros x [->|Hx]; [eapply lle_trans; [apply lmax2_r | exact H1] | apply H2, Hx]. }
    destruct (H l y) as [H1 H2]. intros [<-|Hx]; [exact H1 | apply H2, Hx].
  Qed.
  Lemma flat_in n (f : nat -> nat -> L) x y : x < n -> y < n -> In (f x y) (flat n f).
  Proof. intros Hx Hy. unfold flat. apply in_flat_map. exists x. split; [apply in_seq; lia|]. apply in_map_iff. exists y. split; [reflexivity | apply in_seq; lia]. Qed.
  Lemma flat_length n (f : nat -> nat -> L) : length (flat n f) = n * n.
  Proof.
    unfold flat. assert (forall l, length (flat_map (fun x => map (f x) (seq 0 n)) l) = length l * n) as H.
    { induction l as [|x l IH]; [reflexivity|]. cbn [flat_map length]. rewrite app_length, map_length, seq_length, IH. lia. }
    rewrite H, seq_length. reflexivity.
  Qed.
  Lemma flat_nth n (f : nat -> nat -> L) x y : x < n -> y < n -> nth (x * n + y) (flat n f) l0 = f x y.
  Proof.
    intros Hx Hy. unfold flat. assert (forall k s x, x < k -> nth (x * n + y) (flat_map (fun x => map (f x) (seq 0 n)) (seq s k)) l0 = f (s + x) y) as H.
    { clear x Hx. induction k as [|k IH]; intros s x Hx; [lia|]. cbn [seq flat_map]. destruct x as [|x].
      - cbn [Nat.mul plus]. rewrite app_nth1 by (rewrite map_length, seq_length; exact Hy). rewrite nth_indep with (d' := f s 0) by (rewrite map_length, seq_length; exact Hy).
        rewrite (map_nth (f s)). rewrite seq_nth by exact Hy. f_equal. lia.
      - rewrite app_nth2 by (rewrite map_length, seq_length; lia). rewrite map_length, seq_length. replace (S x * n + y - n) with (x * n + y) by lia. rewrite IH by lia. f_equal. lia. }
    rewrite H by exact Hx. reflexivity.
  Qed.
  Lemma zmin_spec (c : Z) (l : list Z) : In (fold_left Z.min l c) (c :: l) /\ forall x, In x (c :: l) -> (fold_left Z.min l c <= x)%Z.
  Proof.
    revert c. induction l as [|d l IH]; intros c.
    - cbn. split; [left; reflexivity|]. intros x [->|[]]. lia.
    - cbn [fold_left]. destruct (IH (Z.min c d)) as [H1 H2]. split.
      + destruct H1 as [H1|H1]; [|right; right; exact H1]. rewrite <- H1. destruct (Z.min_spec c d) as [[_ ->]|[_ ->]]; [left | right; left]; reflexivity.
      + assert (fold_left Z.min l (Z.min c d) <= Z.min c d)%Z by (apply H2; left; reflexivity). intros x [->|[->|Hx]]; try lia. apply H2. right. exact Hx.
  Qed.
End Min.

Section Greedy.
  Context {L : lsf}.
  Variable w : nat -> nat -> L.
  Variable n : nat.
  Hypothesis w_sym : forall x y, x < n -> y < n -> w x y = w y x.
  Hypothesis w_pos : forall x y, x < n -> y < n -> lle l0 (w x y) = true.
  Notation groups := (list (list nat)).
  Notation partition := (partition n).
  Notation rep := (rep w).
  Implicit Types (gs : groups) (adj : list (list L)).

  Lemma shared_pos g h : (forall x, In x g -> x < n) -> (forall x, In x h -> x < n) -> lle l0 (shared w g h) = true.
  Proof.
    intros Hg Hh. apply lsum_nonneg. intros a Ha. apply in_map_iff in Ha as (x & <- & Hx). apply lsum_nonneg. intros b Hb. apply in_map_iff in Hb as (y & <- & Hy). apply w_pos; auto.
  Qed.
  Lemma opens_pos g : (forall x, In x g -> x < n) -> lle l0 (opens w g) = true.
  Proof. intros Hg. apply lsum_nonneg. intros a Ha. apply in_map_iff in Ha as (x & <- & Hx). apply w_pos; auto. Qed.
  Lemma rep_sym gs adj a b : partition gs -> rep gs adj -> a < length gs -> b < length gs -> get adj a b = get adj b a.
  Proof.
    intros P R Ha Hb. destruct (Nat.eq_dec a b) as [->|N]; [reflexivity|]. rewrite !(rep_off R) by auto. apply (shared_sym w_sym); intros x; apply in_part; exact P.
  Qed.
  Lemma rep_pos gs adj a b : partition gs -> rep gs adj -> a < length gs -> b < length gs -> lle l0 (get adj a b) = true.
  Proof.
    intros P R Ha Hb. destruct (Nat.eq_dec a b) as [->|N]; [rewrite (rep_diag R Hb); apply opens_pos; intros x; apply in_part; exact P|].
    rewrite (rep_off R) by auto. apply shared_pos; intros x; apply in_part; exact P.
  Qed.
  Lemma dim_ge gs adj a b : partition gs -> rep gs adj -> a < length gs -> b < length gs -> lle (get adj b a) (dim_of adj a) = true.
  Proof.
    intros P R Ha Hb. unfold dim_of. rewrite (rep_len R). apply lsum_ge.
    - intros x Hx. apply in_map_iff in Hx as (c & <- & Hc). apply in_seq in Hc. apply (rep_pos P R); lia.
    - apply in_map_iff. exists b. split; [reflexivity | apply in_seq; lia].
  Qed.
  Lemma dim_pos gs adj a : partition gs -> rep gs adj -> a < length gs -> lle l0 (dim_of adj a) = true.
  Proof. intros P R Ha. eapply lle_trans; [|apply (dim_ge (b := a) P R Ha Ha)]. apply (rep_pos P R Ha Ha). Qed.

  Lemma nth_dims adj x : x < length adj -> nth x (map (dim_of adj) (seq 0 (length adj))) l0 = dim_of adj x.
  Proof.
    intros Hx. rewrite nth_indep with (d' := dim_of adj 0) by (rewrite map_length, seq_length; exact Hx). rewrite (map_nth (dim_of adj)). rewrite seq_nth by exact Hx. reflexivity.
  Qed.

  Lemma size_choice_ok gs adj : partition gs -> rep gs adj -> 2 <= length gs -> exists p, size_choice adj = Ok p /\ fst p < snd p < length gs.
  Proof.
    intros P R Hn. unfold size_choice. rewrite (rep_len R).
    set (dm := fun x => nth x (map (dim_of adj) (seq 0 (length gs))) l0).
    set (raw := fun x y => lsub (lplus (dm x) (dm y)) (lplus (get adj x y) (get adj x y))).
    set (big := lmax (flat (length gs) raw)).
    set (new_dims := fun x y => if x =? y then lplus (raw x y) big else raw x y).
    set (change := fun x y => lkey (lsub (new_dims x y) (lmax2 (dm x) (dm y)))).
    set (changes := flat_map (fun x => map (fun y => change x y) (seq 0 (length gs))) (seq 0 (length gs))).
    set (least := match changes with [] => 0%Z | c :: r => fold_left Z.min r c end).
    set (coords := flat_map _ (seq 0 (length gs))). set (upper := filter _ coords).
    assert (dmE : forall x, x < length gs -> dm x = dim_of adj x) by (intros x Hx; unfold dm; rewrite <- (rep_len R); apply nth_dims; rewrite (rep_len R); exact Hx).
    assert (inch : forall x y, x < length gs -> y < length gs -> In (change x y) changes).
    { intros x y Hx Hy. apply in_flat_map. exists x. split; [apply in_seq; lia|]. apply in_map_iff. exists y. split; [reflexivity | apply in_seq; lia]. }
    assert (exists u v, u < length gs /\ v < length gs /\ change u v = least /\ forall x y, x < length gs -> y < length gs -> (least <= change x y)%Z) as (u & v & Hu & Hv & Euv & Hleast).
    { unfold least. destruct changes as [|c r] eqn:Ec; [exfalso; specialize (inch 0 0); destruct inch; lia|]. destruct (zmin_spec c r) as [I1 I2]. rewrite <- Ec in *.
      unfold changes in I1. apply in_flat_map in I1 as (u & Hu & I1). apply in_map_iff in I1 as (v & Ev & Hv). apply in_seq in Hu. apply in_seq in Hv. exists u, v. repeat split; try lia; auto. }
    assert (incoord : forall x y, In (x, y) coords <-> x < length gs /\ y < length gs /\ change x y = least).
    { intros x y. unfold coords. rewrite in_flat_map. split.
      - intros (x' & Hx' & H). apply in_map_iff in H as (y' & E & H). injection E as -> ->. apply filter_In in H as [Hy H]. apply Z.eqb_eq in H. apply in_seq in Hx'. apply in_seq in Hy. repeat split; lia || assumption.
      - intros (Hx & Hy & H). exists x. split; [apply in_seq; lia|]. apply in_map_iff. exists y. split; [reflexivity|]. apply filter_In. split; [apply in_seq; lia | apply Z.eqb_eq, H]. }
    assert (symch : forall x y, x < length gs -> y < length gs -> change x y = change y x).
    { intros x y Hx Hy. unfold change, new_dims, raw. rewrite (rep_sym P R Hx Hy), (Nat.eqb_sym x y), (lplus_c (dm x) (dm y)), (lmax2_c (dm x) (dm y)). reflexivity. }
    assert (exists x y, x < y < length gs /\ change x y = least) as (x & y & Hxy & Exy).
    { destruct (Nat.lt_trichotomy u v) as [Q|[Q|Q]]; [exists u, v; auto | | exists v, u; split; [lia | rewrite symch by lia; exact Euv]]. subst v.
      assert (exists z, z < length gs /\ z <> u) as (z & Hz & Nz) by (destruct u; [exists 1 | exists 0]; lia).
      assert (change u z = least) as Ez.
      { apply Z.le_antisymm; [|apply Hleast; assumption]. rewrite <- Euv. unfold change. apply lkey_mono. unfold new_dims. rewrite Nat.eqb_refl, (proj2 (Nat.eqb_neq u z)) by auto. rewrite lmax2_idem.
        assert (lle (raw u z) big = true) as B1 by (apply lmax_ge, flat_in; assumption).
        assert (lle (get adj u u) (dm u) = true) as B2 by (rewrite dmE by exact Hu; apply (dim_ge P R Hu Hu)).
        set (m := lmax2 (dm u) (dm z)). assert (lle (dm u) m = true) as B3 by apply lmax2_l.
        assert (lle (dm u) (lplus (raw u u) m) = true) as B4.
        { rewrite <- (lle_plus_iff _ _ (lplus (get adj u u) (get adj u u))). replace (lplus (lplus (raw u u) m) (lplus (get adj u u) (get adj u u))) with (lplus (dm u) (lplus (dm u) m)).
          - rewrite (lplus_c (dm u) (lplus (get adj u u) _)), (lplus_c (dm u) (lplus (dm u) m)). apply lle_plus. apply lle_plus2; [exact B2 | eapply lle_trans; [exact B2 | exact B3]].
          - unfold raw. rewrite <- (lplus_a (lsub _ _) m), (lplus_c m), (lplus_a (lsub _ _)), lsub_plus. rewrite lplus_a. reflexivity. }
        rewrite <- (lle_plus_iff _ _ (lplus m (dm u))). rewrite (lplus_a (lsub (raw u z) m)), lsub_plus. rewrite (lplus_c m (dm u)), (lplus_a (lsub _ (dm u))), lsub_plus.
        rewrite <- lplus_a, (lplus_c big m), lplus_a, (lplus_c (raw u z)). apply lle_plus2; assumption. }
      destruct (Nat.lt_ge_cases u z) as [Q|Q]; [exists u, z; auto | exists z, u; split; [lia | rewrite symch by assumption; exact Ez]]. }
    assert (In (x, y) upper) as Iu by (apply filter_In; split; [apply incoord; repeat split; lia || assumption | apply Nat.ltb_lt; cbn; lia]).
    destruct upper as [|q up] eqn:Eup; [destruct Iu|]. cbv zeta. rewrite <- Eup. eexists. split; [reflexivity|].
    match goal with |- context [argmin ?c] => set (cs := c) end.
    assert (length cs = length upper) as Lc. { unfold cs. destruct (llt l0 _); rewrite ?map_length, ?combine_length, ?map_length; lia. }
    assert (argmin cs < length upper) as La. { rewrite <- Lc. apply argmin_spec. intros Q. rewrite Q, Eup in Lc. cbn in Lc. lia. }
    pose proof (nth_In upper (0, 0) La) as I. destruct (nth (argmin cs) upper (0, 0)) as [a b]. unfold upper in I. apply filter_In in I as [I1 I2]. apply incoord in I1. apply Nat.ltb_lt in I2. cbn in *. lia.
  Qed.

  Lemma cost_choice_ok gs adj : partition gs -> rep gs adj -> 2 <= length gs -> (exists a, a < length gs /\ llt l0 (dim_of adj a) = true) ->
    fst (cost_choice adj) < snd (cost_choice adj) < length gs.
  Proof.
    intros P R Hn (a & Ha & Hpos). unfold cost_choice. rewrite (rep_len R). set (m := length gs) in *. set (sc := single_cost adj).
    set (big := lmax (flat m sc)). set (trimmed := fun x y => if llt (get adj x y) ltol then lplus (sc x y) big else sc x y).
    set (big' := lmax (flat m trimmed)). set (pen := fun x y => if x =? y then lplus (trimmed x y) big' else trimmed x y).
    set (k := argmin (flat m pen)).
    destruct (@argmin_spec L (flat m pen)) as (K1 & K2 & K3). { intros Q. apply (f_equal (@length _)) in Q. rewrite flat_length in Q. cbn in Q. nia. }
    fold k in K1, K2, K3. rewrite flat_length in *. cbn [fst snd]. set (x := k / m). set (y := k mod m).
    assert (y < m) as Hy by (apply Nat.mod_upper_bound; lia). assert (x < m) as Hx by (apply Nat.div_lt_upper_bound; lia).
    assert (k = x * m + y) as Ek by (pose proof (Nat.div_mod k m); unfold x, y; lia).
    assert (forall u v, u < m -> v < m -> lle (pen x y) (pen u v) = true) as M1.
    { intros u v Hu Hv. pose proof (K2 (u * m + v)) as Q. rewrite Ek in Q. rewrite !flat_nth in Q by assumption. apply Q. nia. }
    assert (forall u v, u < m -> v < m -> u * m + v < x * m + y -> llt (pen x y) (pen u v) = true) as M2.
    { intros u v Hu Hv Q. pose proof (K3 (u * m + v)) as F. rewrite Ek in F. rewrite !flat_nth in F by assumption. apply F. exact Q. }
    assert (sc_self : forall z, z < m -> lle (dim_of adj z) (sc z z) = true).
    { intros z Hz. unfold sc, single_cost. rewrite <- (lle_plus_iff _ _ (get adj z z)). rewrite lsub_plus. rewrite (lplus_c _ (get adj z z)). apply lle_plus. apply (dim_ge P R Hz Hz). }
    assert (llt l0 big = true) as Hbig. { eapply llt_le_trans; [exact Hpos|]. eapply lle_trans; [apply sc_self, Ha|]. apply lmax_ge, flat_in; assumption. }
    assert (forall z, z < m -> llt l0 (trimmed z z) = true) as Tpos.
    { intros z Hz. unfold trimmed. destruct (llt (get adj z z) ltol) eqn:Q.
      - eapply llt_le_trans; [exact Hbig|]. rewrite <- (lplus_0l big) at 1. apply lle_plus. eapply lle_trans; [apply (dim_pos P R Hz) | apply sc_self, Hz].
      - apply llt_nle in Q. eapply llt_le_trans; [|apply sc_self, Hz]. eapply llt_le_trans; [|apply (dim_ge P R Hz Hz)]. eapply llt_le_trans; [|exact Q]. unfold llt. rewrite ltol_pos. reflexivity. }
    assert (symp : forall u v, u < m -> v < m -> pen u v = pen v u).
    { intros u v Hu Hv. unfold pen, trimmed, sc, single_cost. rewrite (Nat.eqb_sym u v), (rep_sym P R Hu Hv), (lplus_c (dim_of adj u)). reflexivity. }
    split; [|exact Hy]. destruct (Nat.lt_trichotomy x y) as [Q|[Q|Q]]; [exact Q| |].
    - exfalso. assert (exists z, z < m /\ z <> x) as (z & Hz & Nz) by (destruct x as [|?]; [exists 1 | exists 0]; lia). specialize (M1 x z Hx Hz). rewrite <- Q in M1. unfold pen in M1. rewrite Nat.eqb_refl, (proj2 (Nat.eqb_neq x z)) in M1 by auto.
      assert (llt (trimmed x z) (lplus (trimmed x x) big') = true) as F.
      { apply (@lle_lt_trans _ _ big'); [apply lmax_ge, flat_in; assumption|]. apply llt_of.
        - rewrite <- (lplus_0l big') at 1. apply lle_plus, llt_le, Tpos, Hx.
        - intros F. apply (llt_ne (Tpos x Hx)). apply (@lplus_inj _ _ _ big'). rewrite lplus_0l. exact F. }
      unfold llt in F. rewrite M1 in F. discriminate.
    - exfalso. specialize (M2 y x Hy Hx). rewrite (symp y x) in M2 by assumption. rewrite llt_irrefl in M2. assert (y * m + x < x * m + y) by nia. specialize (M2 H). discriminate.
  Qed.

  (** ** runs *)
  Definition tallies (c : option L) (l : list L) : option L := fold_left (fun c x => Some (tally c x)) l c.
  Lemma tallies_some c l : tallies (Some c) l = Some (fold_left lse l c).
  Proof. revert c. induction l as [|x l IH]; intros c; [reflexivity|]. exact (IH (lse c x)). Qed.
  Lemma tallies_total l : tallies None l = total l.
  Proof. destruct l as [|x l]; [reflexivity|]. exact (tallies_some x l). Qed.
  Lemma tallies_app c l m : tallies c (l ++ m) = tallies (tallies c l) m.
  Proof. apply fold_left_app. Qed.

  Lemma greedy_size_run k : forall gs adj o c, partition gs -> rep gs adj -> length gs = S k ->
    exists o', greedy_size k adj o c = Ok (o ++ o', tallies c (step_costs w n gs o')) /\ in_range (length gs) o'.
  Proof.
    induction k as [|k IH]; intros gs adj o c P R Hl.
    - exists []. rewrite app_nil_r. split; [reflexivity | cbn; lia].
    - cbn [greedy_size]. destruct (size_choice_ok P R) as ([j i] & E & Hij); [lia|]. cbn [fst snd] in Hij. rewrite E. cbn [rbind fst snd].
      destruct (IH (join gs j i) (merge_adj adj j i) (o ++ [(j, i)]) (Some (tally c (single_cost adj i j)))) as (o' & E' & Hr).
      + apply join_partition; (lia || exact P).
      + apply (merge_rep w_sym P R); lia.
      + rewrite join_length; lia.
      + exists ((j, i) :: o'). rewrite E'. split.
        * rewrite <- app_assoc. rewrite (single_pair w_sym P R) by lia. rewrite (pair_cost_sym w_sym i j P). reflexivity.
        * cbn. rewrite join_length in Hr by lia. split; [exact Hij | exact Hr].
  Qed.

  (** some tensor always has a leg of dimension larger than one *)
  Definition alive gs : Prop := exists a, a < length gs /\ llt l0 (legs w n (grp gs a)) = true.
  Definition nonempty gs : Prop := forall a, a < length gs -> grp gs a <> [].
  Lemma join_nonempty gs j i : nonempty gs -> j < length gs -> i < length gs -> nonempty (join gs j i).
  Proof.
    intros H Hj Hi a Ha. rewrite (join_length j Hi) in Ha. rewrite (join_nth j Hi Ha). destruct (skip i a =? j).
    - intros Q. apply app_eq_nil in Q as [Q _]. exact (H j Hj Q).
    - apply H, skip_lt; assumption.
  Qed.
  Lemma part_find gs x : partition gs -> x < n -> exists a, a < length gs /\ In x (grp gs a).
  Proof.
    intros P Hx. assert (In x (concat gs)) as I by (apply (Permutation_in _ (Permutation_sym P)), in_seq; lia). apply in_concat in I as (g & Hg & I).
    destruct (In_nth gs g [] Hg) as (a & Ha & E). exists a. split; [exact Ha|]. unfold grp. rewrite E. exact I.
  Qed.
  Lemma part_disjoint gs a b x : partition gs -> a < length gs -> b < length gs -> In x (grp gs a) -> In x (grp gs b) -> a = b.
  Proof.
    intros P Ha Hb Ia Ib. destruct (Nat.eq_dec a b) as [|N]; [assumption|]. exfalso. pose proof (outside P Ha) as O.
    assert (In x (concat (map (grp gs) (remove Nat.eq_dec a (seq 0 (length gs)))))) as I.
    { apply in_concat. exists (grp gs b). split; [apply in_map, in_in_remove; [auto | apply in_seq; lia] | exact Ib]. }
    apply (Permutation_in _ (Permutation_sym O)) in I. apply filter_In in I as [_ I]. apply Bool.negb_true_iff, mem_nIn in I. contradiction.
  Qed.
  Lemma legs_parts g : (forall x, In x g -> x < n) -> forall x, In x g -> lle (w x x) (legs w n g) = true /\ forall y, y < n -> ~ In y g -> lle (w x y) (legs w n g) = true.
  Proof.
    intros Hg x Hx. unfold legs.
    assert (lle l0 (lsum (map (fun x => w x x) g)) = true) as A1 by (apply opens_pos, Hg).
    assert (forall z, In z (map (fun x => lsum (map (w x) (filter (fun y => negb (mem y g)) (seq 0 n)))) g) -> lle l0 z = true) as A2.
    { intros z Hz. apply in_map_iff in Hz as (u & <- & Hu). apply lsum_nonneg. intros v Hv. apply in_map_iff in Hv as (y & <- & Hy). apply filter_In in Hy as [Hy _]. apply in_seq in Hy. apply w_pos; [auto | lia]. }
    split.
    - rewrite <- (lplus_0 (w x x)). apply lle_plus2; [|apply lsum_nonneg, A2]. apply lsum_ge; [intros z Hz; apply in_map_iff in Hz as (u & <- & Hu); apply w_pos; auto|]. apply in_map_iff. exists x. auto.
    - intros y Hy Ny. rewrite <- (lplus_0l (w x y)). apply lle_plus2; [exact A1|]. eapply lle_trans; [|apply lsum_ge; [exact A2 | apply in_map_iff; exists x; split; [reflexivity | exact Hx]]].
      apply lsum_ge; [intros z Hz; apply in_map_iff in Hz as (u & <- & Hu); apply filter_In in Hu as [Hu _]; apply in_seq in Hu; apply w_pos; [auto | lia]|].
      apply in_map, filter_In. split; [apply in_seq; lia | apply Bool.negb_true_iff, mem_nIn, Ny].
  Qed.
  Lemma lively_alive gs : lively w n -> partition gs -> nonempty gs -> 2 <= length gs -> alive gs.
  Proof.
    intros [(x & Hx & Hw)|H] P NE Hl.
    - destruct (part_find P Hx) as (a & Ha & I). exists a. split; [exact Ha|]. eapply llt_le_trans; [exact Hw|]. refine (proj1 (legs_parts _ I)). intros y. apply in_part, P.
    - destruct (grp gs 0) as [|x g0] eqn:E0; [exfalso; apply (NE 0); [lia | exact E0]|]. destruct (grp gs 1) as [|y g1] eqn:E1; [exfalso; apply (NE 1); [lia | exact E1]|].
      destruct (H (fun z => mem z (grp gs 0))) as (u & v & Hu & Hv & Su & Sv & Hw).
      + exists x. split; [apply (in_part (a := 0) P); rewrite E0; left; reflexivity | apply mem_In; rewrite E0; left; reflexivity].
      + exists y. split; [apply (in_part (a := 1) P); rewrite E1; left; reflexivity|]. apply mem_nIn. intros I.
        assert (0 = 1) by (apply (part_disjoint (gs := gs) (x := y) P); try lia; [exact I | rewrite E1; left; reflexivity]). lia.
      + apply mem_In in Su. apply mem_nIn in Sv. exists 0. split; [lia|]. eapply llt_le_trans; [exact Hw|]. refine (proj2 (legs_parts _ Su) v Hv Sv). intros z. apply in_part, P.
  Qed.

  Lemma greedy_cost_run k : lively w n -> forall gs adj o c, partition gs -> rep gs adj -> nonempty gs -> length gs = S k ->
    exists o', greedy_cost k adj o c = (o ++ o', tallies c (step_costs w n gs o')) /\ in_range (length gs) o'.
  Proof.
    intros Hlive. induction k as [|k IH]; intros gs adj o c P R NE Hl.
    - exists []. rewrite app_nil_r. split; [reflexivity | cbn; lia].
    - cbn [greedy_cost]. assert (fst (cost_choice adj) < snd (cost_choice adj) < length gs) as Hij.
      { apply (cost_choice_ok P R); [lia|]. destruct (lively_alive Hlive P NE) as (a & Ha & Q); [lia|]. exists a. split; [exact Ha|]. rewrite (dim_legs w_sym P R Ha). exact Q. }
      destruct (cost_choice adj) as [j i] eqn:E. cbn [fst snd] in *. rewrite Nat.max_r, Nat.min_l by lia.
      destruct (IH (join gs j i) (merge_adj adj j i) (o ++ [(j, i)]) (Some (tally c (single_cost adj i j)))) as (o' & E' & Hr).
      + apply join_partition; (lia || exact P).
      + apply (merge_rep w_sym P R); lia.
      + apply join_nonempty; (lia || exact NE).
      + rewrite join_length; lia.
      + exists ((j, i) :: o'). rewrite E'. split.
        * rewrite <- app_assoc. rewrite (single_pair w_sym P R) by lia. rewrite (pair_cost_sym w_sym i j P). reflexivity.
        * cbn. rewrite join_length in Hr by lia. split; [exact Hij | exact Hr].
  Qed.
End Greedy.
