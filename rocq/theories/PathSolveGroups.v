(** * PathSolveGroups: orders step by step, tags of groups, and when only outer products remain *)
From Coq Require Import Permutation NArith.
From Verif Require Import Prelude Res PathSolve PathSolveSpec PathSolveAdj PathSolveGreedy.
Set Implicit Arguments.
Unset Strict Implicit.

Section Groups.
  Context {L : lsf}.
  Variable w : nat -> nat -> L.
  Variable n : nat.
  Hypothesis w_sym : forall x y, x < n -> y < n -> w x y = w y x.
  Hypothesis w_pos : forall x y, x < n -> y < n -> lle l0 (w x y) = true.
  Notation groups := (list (list nat)).
  Notation partition := (partition n).
  Implicit Types (gs : groups) (o : list (nat * nat)).

  (** ** prefixes of orders *)
  Fixpoint steps_ok (k : nat) o : Prop := match o with [] => True | p :: r => ok_pair k p /\ steps_ok (k - 1) r end.
  Lemma steps_ok_app k o p : steps_ok k (o ++ [p]) <-> steps_ok k o /\ ok_pair (k - length o) p.
  Proof.
    revert k. induction o as [|q o IH]; intros k; cbn [app steps_ok length]; [rewrite Nat.sub_0_r; tauto|]. rewrite IH. replace (k - S (length o)) with (k - 1 - length o) by lia. tauto.
  Qed.
  Lemma in_range_steps k o : in_range k o -> steps_ok k o.
  Proof. revert k. induction o as [|p o IH]; intros k; cbn; [trivial|]. intros [H1 H2]. auto. Qed.
  Lemma steps_len k o : steps_ok k o -> length o <= k - 1.
  Proof. revert k. induction o as [|p o IH]; intros k; cbn; [lia|]. intros [H1 H2]. apply IH in H2. unfold ok_pair in H1. lia. Qed.
  Lemma in_range_len k o : 1 <= k -> (in_range k o <-> steps_ok k o /\ length o = k - 1).
  Proof.
    revert k. induction o as [|p o IH]; intros k Hk; cbn [in_range steps_ok length].
    - split; [split; [trivial|]; lia | lia].
    - split.
      + intros [H1 H2]. unfold ok_pair in *. apply IH in H2; [|lia]. split; [tauto | lia].
      + intros [[H1 H2] H3]. unfold ok_pair in *. split; [exact H1|]. apply IH; [lia|]. split; [exact H2 | lia].
  Qed.
  Lemma groups_app gs o p : groups_after gs (o ++ [p]) = join (groups_after gs o) (fst p) (snd p).
  Proof. revert gs. induction o as [|[j i] o IH]; intros gs; cbn; [destruct p; reflexivity | apply IH]. Qed.
  Lemma costs_app gs o p : step_costs w n gs (o ++ [p]) =
    step_costs w n gs o ++ [pair_cost w n (grp (groups_after gs o) (fst p)) (grp (groups_after gs o) (snd p))].
  Proof. revert gs. induction o as [|[j i] o IH]; intros gs; cbn; [destruct p; reflexivity | f_equal; apply IH]. Qed.
  Lemma no_outer_app gs o p : no_outer w gs (o ++ [p]) <->
    no_outer w gs o /\ (joined w (groups_after gs o) (fst p) (snd p) \/ only_outer w (groups_after gs o)).
  Proof. revert gs. induction o as [|[j i] o IH]; intros gs; cbn; [destruct p; cbn; tauto | rewrite IH; tauto]. Qed.

  Lemma after_ok gs o : partition gs -> nonempty gs -> steps_ok (length gs) o ->
    partition (groups_after gs o) /\ nonempty (groups_after gs o) /\ length (groups_after gs o) = length gs - length o.
  Proof.
    revert gs. induction o as [|[j i] o IH]; intros gs P NE; cbn [steps_ok groups_after length]; [intros _; split; [exact P|]; split; [exact NE | lia]|].
    intros [H1 H2]. unfold ok_pair in H1. cbn in H1. rewrite <- (join_length j (gs := gs) (i := i)) in H2 by lia. destruct (IH (join gs j i)) as (A & B & C); auto.
    - apply join_partition; (lia || assumption).
    - apply join_nonempty; (lia || assumption).
    - split; [exact A|]. split; [exact B|]. rewrite C, join_length by lia. lia.
  Qed.
  Lemma singles_grp a : a < n -> grp (singles n) a = [a].
  Proof.
    intros Ha. unfold grp, singles. rewrite nth_indep with (d' := [0]) by (rewrite map_length, seq_length; exact Ha). rewrite (map_nth (fun x => [x])). rewrite seq_nth by exact Ha. reflexivity.
  Qed.
  Lemma singles_len : length (singles n) = n.
  Proof. unfold singles. rewrite map_length, seq_length. reflexivity. Qed.
  Lemma singles_part : partition (singles n) /\ nonempty (singles n).
  Proof.
    split.
    - unfold PathSolveAdj.partition, singles. replace (concat (map (fun x => [x]) (seq 0 n))) with (seq 0 n); [reflexivity|]. generalize (seq 0 n). intros l. induction l as [|x l IH]; [reflexivity|]. cbn. f_equal. exact IH.
    - intros a Ha. rewrite singles_len in Ha. rewrite (singles_grp Ha). discriminate.
  Qed.
  Notation G o := (groups_after (singles n) o).
  Lemma G_ok o : steps_ok n o -> partition (G o) /\ nonempty (G o) /\ length (G o) = n - length o.
  Proof. intros H. destruct singles_part as [P NE]. destruct (@after_ok (singles n) o P NE) as (A & B & C); [rewrite singles_len; exact H|]. rewrite singles_len in C. auto. Qed.

  (** ** groups equal up to the order of their members *)
  Definition same gs gs' : Prop := length gs = length gs' /\ forall a, a < length gs -> Permutation (grp gs a) (grp gs' a).
  Lemma shared_perm g g' h h' : Permutation g g' -> Permutation h h' -> shared w g h = shared w g' h'.
  Proof.
    intros Pg Ph. unfold shared. rewrite (lsum_perm (Permutation_map _ Pg)). apply lsum_ext. intros x _. apply lsum_perm, Permutation_map, Ph.
  Qed.
  Lemma legs_perm g g' : Permutation g g' -> legs w n g = legs w n g'.
  Proof.
    intros P. unfold legs. rewrite (lsum_perm (Permutation_map (fun x => w x x) P)). f_equal. rewrite (lsum_perm (Permutation_map _ P)). apply lsum_ext. intros x _. f_equal. f_equal. apply filter_ext. intros y. f_equal.
    destruct (mem y g) eqn:E, (mem y g') eqn:F; try reflexivity.
    - apply mem_In in E. apply mem_nIn in F. exfalso. apply F, (Permutation_in _ P), E.
    - apply mem_nIn in E. apply mem_In in F. exfalso. apply E, (Permutation_in _ (Permutation_sym P)), F.
  Qed.
  Lemma pair_cost_perm g g' h h' : Permutation g g' -> Permutation h h' -> pair_cost w n g h = pair_cost w n g' h'.
  Proof. intros Pg Ph. unfold pair_cost. rewrite (legs_perm Pg), (legs_perm Ph), (shared_perm Pg Ph). reflexivity. Qed.
  Lemma same_join gs gs' j i : same gs gs' -> j < length gs -> i < length gs -> same (join gs j i) (join gs' j i).
  Proof.
    intros [E H] Hj Hi. assert (i < length gs') as Hi' by lia. split; [rewrite !join_length by assumption; lia|]. intros a Ha. rewrite (join_length j Hi) in Ha.
    rewrite !join_nth by (assumption || lia). destruct (skip i a =? j); [apply Permutation_app; apply H; assumption | apply H, skip_lt; assumption].
  Qed.
  Lemma same_joined gs gs' j i : same gs gs' -> j < length gs -> i < length gs -> (joined w gs j i <-> joined w gs' j i).
  Proof. intros [E H] Hj Hi. unfold joined. change (nth j gs []) with (grp gs j). change (nth i gs []) with (grp gs i). rewrite (shared_perm (H j Hj) (H i Hi)). reflexivity. Qed.
  Lemma same_sym gs gs' : same gs gs' -> same gs' gs.
  Proof. intros [E H]. split; [auto|]. intros a Ha. apply Permutation_sym, H. lia. Qed.
  Lemma same_only gs gs' : same gs gs' -> only_outer w gs -> only_outer w gs'.
  Proof. intros S H j i Hji J. pose proof (proj1 S) as E. rewrite <- E in Hji. apply (H j i Hji). unfold ok_pair in Hji. cbn in Hji. apply (same_joined S); try lia. exact J. Qed.

  (** ** tags *)
  Definition bits (g : list nat) : N := fold_right (fun x a => (2 ^ N.of_nat x + a)%N) 0%N g.
  Definition tag (g : list nat) : N := u64 (bits g).
  Lemma bits_app g h : bits (g ++ h) = (bits g + bits h)%N.
  Proof. induction g as [|x g IH]; [reflexivity|]. cbn [app bits fold_right]. fold (bits (g ++ h)) (bits g). rewrite IH. lia. Qed.
  Lemma bits_test g x : NoDup g -> N.testbit (bits g) (N.of_nat x) = mem x g.
  Proof.
    intros ND. revert x. induction ND as [|y g Ny ND IH]; intros x; [apply N.bits_0|]. cbn [bits fold_right]. fold (bits g).
    rewrite N.add_nocarry_lxor.
    - rewrite N.lxor_spec, N.pow2_bits_eqb, IH. destruct (Nat.eq_dec y x) as [->|Q].
      + rewrite N.eqb_refl. rewrite (proj2 (mem_nIn x g) Ny). symmetry. apply mem_In. left. reflexivity.
      + rewrite (proj2 (N.eqb_neq (N.of_nat y) (N.of_nat x))) by lia. destruct (mem x g) eqn:E; symmetry; [apply mem_In; right; apply mem_In, E|]. apply mem_nIn in E. apply mem_nIn. intros [F|F]; auto.
    - apply N.bits_inj_0. intros z. rewrite N.land_spec, N.pow2_bits_eqb. destruct (N.eqb_spec (N.of_nat y) z) as [<-|Q]; [|reflexivity]. rewrite IH. cbn. apply mem_nIn, Ny.
  Qed.
  Lemma tag_inj g h : NoDup g -> NoDup h -> (forall x, In x g -> x < 64) -> (forall x, In x h -> x < 64) -> tag g = tag h -> Permutation g h.
  Proof.
    intros Ng Nh Bg Bh E. assert (forall x, x < 64 -> mem x g = mem x h) as M.
    { intros x Hx. rewrite <- !bits_test by assumption. rewrite <- (N.mod_pow2_bits_low (bits g) 64), <- (N.mod_pow2_bits_low (bits h) 64) by lia. unfold tag, u64 in E. rewrite E. reflexivity. }
    apply NoDup_Permutation; [assumption | assumption|]. intros x. rewrite <- !mem_In. split; intros H.
    - rewrite <- M; [exact H | apply Bg, mem_In, H].
    - rewrite M; [exact H | apply Bh, mem_In, H].
  Qed.
  Lemma tag_perm g h : Permutation g h -> tag g = tag h.
  Proof.
    intros P. unfold tag. f_equal. induction P; cbn [bits fold_right]; unfold bits in *; try congruence; try lia.
  Qed.
  Lemma tag_app g h : u64 (tag g + tag h) = tag (g ++ h).
  Proof. unfold tag, u64. rewrite bits_app. symmetry. apply N.add_mod. discriminate. Qed.
  Lemma grp_nodup gs a : partition gs -> NoDup (grp gs a).
  Proof.
    intros P. destruct (Nat.lt_ge_cases a (length gs)) as [Q|Q]; [|unfold grp; rewrite nth_overflow by exact Q; constructor].
    pose proof (Permutation_NoDup (Permutation_sym P) (seq_NoDup n 0)) as ND. apply (Permutation_NoDup (concat_split Q)) in ND. revert ND. generalize (grp gs a). intros g. induction g as [|x g IH]; intros ND; [constructor|].
    cbn in ND. inversion ND as [|? ? N1 N2]; subst. constructor; [intros I; apply N1, in_or_app; left; exact I | apply IH, N2].
  Qed.
  Lemma tags_same gs gs' : n <= 64 -> partition gs -> partition gs' -> map tag gs = map tag gs' -> same gs gs'.
  Proof.
    intros Hn P P' E. pose proof (f_equal (@length _) E) as El. rewrite !map_length in El. split; [exact El|]. intros a Ha.
    apply tag_inj; try (apply grp_nodup; assumption); try (intros x Hx; first [pose proof (in_part P Hx) | pose proof (in_part P' Hx)]; lia).
    unfold grp. rewrite <- !(map_nth tag). rewrite E. reflexivity.
  Qed.
  Lemma same_tags gs gs' : same gs gs' -> map tag gs = map tag gs'.
  Proof.
    intros [E H]. apply (@nth_ext _ _ _ (tag []) (tag [])); [rewrite !map_length; exact E|]. intros a Ha. rewrite map_length in Ha. rewrite !map_nth. apply tag_perm, H, Ha.
  Qed.
  Lemma merge_tags gs j i : j < length gs -> i < length gs -> merge_groups (map tag gs) j i = map tag (join gs j i).
  Proof.
    intros Hj Hi. assert (forall x, x < length gs -> nth x (map tag gs) 0%N = tag (grp gs x)) as E by (intros x Hx; rewrite nth_indep with (d' := tag []) by (rewrite map_length; exact Hx); apply map_nth).
    unfold merge_groups. rewrite map_length.
    apply (@nth_ext _ _ _ 0%N (tag [])); [rewrite !map_length, seq_length, join_length by exact Hi; reflexivity|]. intros a Ha. rewrite map_length, seq_length in Ha.
    rewrite (map_nth tag). change (nth a (join gs j i) []) with (grp (join gs j i) a). rewrite (join_nth j Hi Ha).
    set (g1 := map _ (seq 0 (length gs))).
    rewrite nth_indep with (d' := nth (skip i 0) g1 0%N) by (rewrite map_length, seq_length; exact Ha). rewrite (map_nth (fun x => nth (skip i x) g1 0%N)). rewrite seq_nth by exact Ha. cbn [plus].
    pose proof (skip_lt Hi Ha) as Hs. unfold g1. set (f := fun x => if x =? j then _ else _). rewrite nth_indep with (d' := f 0) by (rewrite map_length, seq_length; exact Hs). rewrite (map_nth f). rewrite seq_nth by exact Hs. cbn [plus]. unfold f.
    destruct (skip i a =? j); [rewrite !E by assumption; apply tag_app | apply E, Hs].
  Qed.
  Lemma first_tags : map (fun x => u64 (2 ^ N.of_nat x)) (seq 0 n) = map tag (singles n).
  Proof. unfold singles. rewrite map_map. apply map_ext. intros x. unfold tag, bits. cbn [fold_right]. rewrite N.add_0_r. reflexivity. Qed.

  (** ** all networks of a level run out of shared legs at the same time *)
  Lemma shared_some g h : (forall x, In x g -> x < n) -> (forall x, In x h -> x < n) -> llt l0 (shared w g h) = true -> exists x y, In x g /\ In y h /\ llt l0 (w x y) = true.
  Proof.
    intros Hg Hh H. assert (forall A (f : A -> L) l, llt l0 (lsum (map f l)) = true -> exists x, In x l /\ llt l0 (f x) = true) as K.
    { clear. intros A f l. induction l as [|x l IH]; cbn; [rewrite llt_irrefl; discriminate|]. fold (lsum (map f l)). intros H. destruct (llt l0 (f x)) eqn:E; [exists x; auto|].
      destruct (llt l0 (lsum (map f l))) eqn:F; [destruct (IH eq_refl) as (y & Hy & Q); exists y; auto|]. exfalso. apply llt_nle in E. apply llt_nle in F. pose proof (lle_plus2 E F) as Q. rewrite lplus_0 in Q. apply llt_nle in Q. congruence. }
    destruct (K _ _ _ H) as (x & Hx & Q). destruct (K _ _ _ Q) as (y & Hy & Q'). exists x, y. auto.
  Qed.
  Lemma shared_any g h x y : (forall x, In x g -> x < n) -> (forall x, In x h -> x < n) -> In x g -> In y h -> llt l0 (w x y) = true -> llt l0 (shared w g h) = true.
  Proof.
    intros Hg Hh Hx Hy H. eapply llt_le_trans; [exact H|]. unfold shared. eapply lle_trans.
    - apply (@lsum_ge L (map (w x) h)); [intros z Hz; apply in_map_iff in Hz as (u & <- & Hu); apply w_pos; auto | apply in_map, Hy].
    - apply lsum_ge; [|apply in_map_iff; exists x; auto]. intros z Hz. apply in_map_iff in Hz as (u & <- & Hu). apply lsum_nonneg. intros v Hv. apply in_map_iff in Hv as (q & <- & Hq). apply w_pos; auto.
  Qed.
  (** every labelling that is constant along legs is constant on the group *)
  Definition conn (g : list nat) : Prop :=
    forall f : nat -> nat, (forall x y, x < n -> y < n -> llt l0 (w x y) = true -> f x = f y) -> forall x y, In x g -> In y g -> f x = f y.
  Definition phase gs : Prop := (forall a, a < length gs -> conn (grp gs a)) \/ only_outer w gs.
  Lemma joined_sym gs j i : partition gs -> joined w gs j i -> joined w gs i j.
  Proof. intros P. unfold joined. change (nth j gs []) with (grp gs j). change (nth i gs []) with (grp gs i). rewrite (shared_sym w_sym (g := grp gs j) (h := grp gs i)); auto; intros x; apply in_part, P. Qed.
  Lemma only_any gs a b : partition gs -> only_outer w gs -> a < length gs -> b < length gs -> a <> b -> ~ joined w gs a b.
  Proof.
    intros P H Ha Hb N J. destruct (Nat.lt_ge_cases a b) as [Q|Q]; [apply (H a b); [split; cbn; lia | exact J] | apply (H b a); [split; cbn; lia | apply (joined_sym P), J]].
  Qed.
  Lemma phase_join gs j i : partition gs -> phase gs -> ok_pair (length gs) (j, i) -> joined w gs j i \/ only_outer w gs -> phase (join gs j i).
  Proof.
    intros P Ph Hji Q. unfold ok_pair in Hji. cbn in Hji. assert (j < length gs) as Hj by lia. assert (i < length gs) as Hi by lia.
    assert (forall a x, In x (grp gs a) -> x < n) as B by (intros a x; apply in_part, P).
    assert (Q' : joined w gs j i /\ (forall a, a < length gs -> conn (grp gs a)) \/ only_outer w gs).
    { destruct Q as [J|O]; [|right; exact O]. destruct Ph as [C|O]; [left; auto | right; exact O]. } clear Q Ph. destruct Q' as [[J C]|O].
    - left. intros a Ha. rewrite (join_length j Hi) in Ha. rewrite (join_nth j Hi Ha). destruct (skip i a =? j); [|apply C, skip_lt; assumption].
      destruct (shared_some (B j) (B i) J) as (u & v & Hu & Hv & Q). intros f Hf. assert (f u = f v) as E by (apply Hf; eauto).
      assert (forall x, In x (grp gs j ++ grp gs i) -> f x = f u) as K by (intros x Hx; apply in_app_or in Hx as [Hx|Hx]; [apply (C j Hj f Hf); assumption | rewrite E; apply (C i Hi f Hf); assumption]).
      intros x y Hx Hy. rewrite (K x Hx), (K y Hy). reflexivity.
    - right. intros a b Hab J. unfold ok_pair in Hab. cbn in Hab. rewrite (join_length j Hi) in Hab. unfold joined in J. change (nth ?z (join gs j i) []) with (grp (join gs j i) z) in J.
      change (nth b (join gs j i) []) with (grp (join gs j i) b) in J. rewrite !join_nth in J by lia.
      assert (skip i a <> skip i b) as N by (intros Q; apply skip_inj in Q; lia). pose proof (skip_lt (i := i) (x := a) (k := length gs) Hi ltac:(lia)) as La. pose proof (skip_lt (i := i) (x := b) (k := length gs) Hi ltac:(lia)) as Lb.
      pose proof (@skip_ne i a) as Na. pose proof (@skip_ne i b) as Nb.
      assert (forall u v, u < length gs -> v < length gs -> u <> v -> forall x y, In x (grp gs u) -> In y (grp gs v) -> llt l0 (w x y) = false) as Z.
      { intros u v Hu Hv Nuv x y Hx Hy. destruct (llt l0 (w x y)) eqn:E; [|reflexivity]. exfalso. apply (only_any P O Hu Hv Nuv). unfold joined. apply (shared_any (B u) (B v) Hx Hy E). }
      apply shared_some in J as (x & y & Hx & Hy & E).
      + destruct (Nat.eqb_spec (skip i a) j) as [Ea|Ea]; destruct (Nat.eqb_spec (skip i b) j) as [Eb|Eb]; [congruence| | |].
        * apply in_app_or in Hx as [Hx|Hx]; [rewrite (Z j (skip i b)) in E by auto | rewrite (Z i (skip i b)) in E by auto]; discriminate.
        * apply in_app_or in Hy as [Hy|Hy]; [rewrite (Z (skip i a) j) in E by auto | rewrite (Z (skip i a) i) in E by auto]; discriminate.
        * rewrite (Z (skip i a) (skip i b)) in E by auto. discriminate.
      + intros x Hx. destruct (skip i a =? j); [apply in_app_or in Hx as [Hx|Hx]; eauto | eauto].
      + intros x Hx. destruct (skip i b =? j); [apply in_app_or in Hx as [Hx|Hx]; eauto | eauto].
  Qed.
  Lemma phase_singles : phase (singles n).
  Proof. left. intros a Ha. rewrite singles_len in Ha. rewrite (singles_grp Ha). intros f Hf x y [<-|[]] [<-|[]]. reflexivity. Qed.
  Lemma phase_after o : steps_ok n o -> no_outer w (singles n) o -> phase (G o).
  Proof.
    induction o as [|p o IH] using rev_ind; [intros _ _; apply phase_singles|]. rewrite steps_ok_app, no_outer_app, groups_app. intros [S1 S2] [N1 N2]. destruct (G_ok S1) as (P & NE & El).
    apply phase_join; auto. destruct p. rewrite El. exact S2.
  Qed.

  (** the position of the group containing [x] *)
  Fixpoint where_is (x : nat) gs : nat := match gs with [] => 0 | g :: r => if mem x g then 0 else S (where_is x r) end.
  Lemma where_spec gs x : (exists a, a < length gs /\ In x (grp gs a)) -> where_is x gs < length gs /\ In x (grp gs (where_is x gs)).
  Proof.
    induction gs as [|g gs IH]; intros (a & Ha & I); [cbn in Ha; lia|]. cbn [where_is length]. destruct (mem x g) eqn:E; [split; [lia | apply mem_In, E]|].
    destruct a as [|a]; [apply mem_nIn in E; contradiction|]. destruct IH as [H1 H2]; [exists a; split; [cbn in Ha; lia | exact I]|]. split; [lia | exact H2].
  Qed.
  Lemma only_outer_all gs gs' : partition gs -> nonempty gs -> partition gs' -> nonempty gs' -> length gs = length gs' -> only_outer w gs -> phase gs' -> only_outer w gs'.
  Proof.
    intros P NE P' NE' El O [C|O']; [|exact O']. set (f := fun x => where_is x gs).
    assert (forall x, x < n -> f x < length gs /\ In x (grp gs (f x))) as F by (intros x Hx; apply where_spec, (part_find P Hx)).
    assert (forall a x, In x (grp gs a) -> f x = a) as F'.
    { intros a x Hx. assert (x < n) as Hxn by (apply (in_part P Hx)). destruct (F x Hxn) as [F1 F2]. destruct (Nat.lt_ge_cases a (length gs)) as [Q|Q]; [apply (part_disjoint (x := x) P F1 Q F2 Hx)|]. unfold grp in Hx. rewrite nth_overflow in Hx by exact Q. destruct Hx. }
    assert (Hf : forall x y, x < n -> y < n -> llt l0 (w x y) = true -> f x = f y).
    { intros x y Hx Hy E. destruct (F x Hx) as [X1 X2]. destruct (F y Hy) as [Y1 Y2]. destruct (Nat.eq_dec (f x) (f y)) as [|N]; [assumption|]. exfalso. apply (only_any P O X1 Y1 N). unfold joined. apply (@shared_any _ _ x y); auto; intros z; apply in_part, P. }
    set (H := fun a => f (hd 0 (grp gs' a))). assert (forall a x, a < length gs' -> In x (grp gs' a) -> f x = H a) as HH.
    { intros a x Ha Hx. apply (C a Ha f Hf); [exact Hx|]. specialize (NE' a Ha). destruct (grp gs' a); [congruence | left; reflexivity]. }
    assert (NoDup (map H (seq 0 (length gs')))) as ND.
    { apply (@NoDup_incl_NoDup _ (seq 0 (length gs))); [apply seq_NoDup | rewrite map_length, !seq_length; lia|]. intros b Hb. apply in_seq in Hb. specialize (NE b ltac:(lia)).
      destruct (grp gs b) as [|x g] eqn:E; [congruence|]. assert (In x (grp gs b)) as Hx by (rewrite E; left; reflexivity). assert (x < n) as Hxn by (apply (in_part P Hx)).
      destruct (part_find P' Hxn) as (a & Ha & I). apply in_map_iff. exists a. split; [rewrite <- (HH a x Ha I); apply F', Hx | apply in_seq; lia]. }
    intros j i Hji J. unfold ok_pair in Hji. cbn in Hji. apply shared_some in J as (x & y & Hx & Hy & E); [|intros z; apply in_part, P'|intros z; apply in_part, P'].
    assert (H j = H i) as Q. { rewrite <- (HH j x), <- (HH i y) by (lia || assumption). apply Hf; [apply (in_part P' Hx) | apply (in_part P' Hy) | exact E]. }
    assert (forall (m : nat) (h : nat -> nat), NoDup (map h (seq 0 m)) -> forall a b, a < m -> b < m -> h a = h b -> a = b) as INJ.
    { clear. intros m h ND a b Ha Hb E. apply (proj1 (NoDup_nth (map h (seq 0 m)) (h 0)) ND); rewrite ?map_length, ?seq_length; try assumption. rewrite !map_nth, !seq_nth by assumption. exact E. }
    assert (j = i) by (apply (INJ _ _ ND); (lia || assumption)). lia.
  Qed.
End Groups.
