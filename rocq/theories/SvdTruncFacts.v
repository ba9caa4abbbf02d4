From Coq Require Import Reals List Lia Lra Sorting.Sorted.
From Verif Require Import Res SvdTrunc.
Import ListNotations.
Set Implicit Arguments.
Unset Strict Implicit.
Local Open Scope R_scope.

(** Euclidean norm *)
Definition norm (l : list R) : R := sqrt (fold_right (fun x acc => x * x + acc) 0 l).

Lemma sumsq_nonneg l : 0 <= fold_right (fun x acc => x * x + acc) 0 l.
Proof. induction l as [|x r IH]; cbn; [lra|]. nra. Qed.
Lemma norm_skipn_S s k : norm (skipn (S k) s) <= norm (skipn k s).
Proof.
  revert k. induction s as [|x r IH]; intros k; [destruct k; apply Rle_refl|].
  destruct k; [|apply IH]. cbn [skipn]. unfold norm. apply sqrt_le_1_alt. cbn. pose proof (sumsq_nonneg r). nra.
Qed.
Lemma norm_skipn_mono s j k : (j <= k)%nat -> norm (skipn k s) <= norm (skipn j s).
Proof.
  induction 1; [apply Rle_refl|]. eapply Rle_trans; [apply norm_skipn_S | exact IHle].
Qed.
Lemma norm_nil : norm [] = 0.
Proof. apply sqrt_0. Qed.

Lemma rcumsum_app acc l x : rcumsum acc (l ++ [x]) = rcumsum acc l ++ [fold_left Rplus l acc + x].
Proof. revert acc. induction l; cbn; intros; [reflexivity|]. rewrite IHl. reflexivity. Qed.
Lemma fold_left_sum l acc : fold_left Rplus l acc = acc + fold_right Rplus 0 l.
Proof. revert acc. induction l; cbn; intros; [lra|]. rewrite IHl. lra. Qed.
Lemma sum_rev l : fold_right Rplus 0 (rev l) = fold_right Rplus 0 l.
Proof.
  assert (forall a b, fold_right Rplus 0 (a ++ b) = fold_right Rplus 0 a + fold_right Rplus 0 b) as E.
  { induction a; cbn; intros; [lra|]. rewrite IHa. lra. }
  induction l; cbn; [reflexivity|]. rewrite E. cbn. rewrite IHl. lra.
Qed.
Lemma sum_squares l : fold_right Rplus 0 (map (fun x => x * x) l) = fold_right (fun x acc => x * x + acc) 0 l.
Proof. induction l; cbn; [reflexivity|]. rewrite IHl. reflexivity. Qed.

(** the truncation errors are the norms of the suffixes, shortest first *)
Lemma trunc_errs_suffixes s : trunc_errs s = rev (map (fun k => norm (skipn k s)) (seq 0 (length s))).
Proof.
  unfold trunc_errs. induction s as [|x r IH]; [reflexivity|].
  cbn [rev length seq map]. rewrite map_app. cbn [map]. rewrite rcumsum_app, map_app. rewrite IH.
  rewrite <- seq_shift, map_map. cbn [skipn]. f_equal. cbn [map]. f_equal. unfold norm. f_equal. cbn [fold_right].
  rewrite fold_left_sum, map_rev, sum_rev, sum_squares. lra.
Qed.

Lemma count_gt_perm e l : count_gt e (rev l) = count_gt e l.
Proof.
  unfold count_gt.
  assert (forall a b, filter (fun x => if Rlt_dec e x then true else false) (a ++ b) =
    filter (fun x => if Rlt_dec e x then true else false) a ++ filter (fun x => if Rlt_dec e x then true else false) b) as E
    by (intros; apply filter_app).
  induction l; cbn [rev]; [reflexivity|]. rewrite E, app_length, IHl. cbn [filter].
  destruct (Rlt_dec e a); cbn; lia.
Qed.

(** counting in a non-increasing sequence *)
Lemma count_gt_spec e (f : nat -> R) n : (forall j k, (j <= k)%nat -> f k <= f j) ->
  let c := count_gt e (map f (seq 0 n)) in
  (c <= n)%nat /\ (forall k, (k < c)%nat -> e < f k) /\ (forall k, (c <= k < n)%nat -> f k <= e).
Proof.
  intros Hm. unfold count_gt. induction n as [|n IH]; cbn zeta.
  - cbn. repeat split; intros; lia.
  - rewrite seq_S, map_app, filter_app, app_length. cbn [map filter plus].
    cbn zeta in IH. set (c := length (filter _ (map f (seq 0 n)))) in *. destruct IH as (H1 & H2 & H3).
    destruct (Rlt_dec e (f n)) as [H|H]; cbn [length].
    + assert (c = n) as ->.
      { destruct (Nat.eq_dec c n) as [E|E]; [exact E|]. exfalso.
        assert (f c <= e) by (apply H3; lia). assert (f n <= f c) by (apply Hm; lia). lra. }
      repeat split; [lia| |intros; lia]. intros k Hk.
      assert (f n <= f k) by (apply Hm; lia). lra.
    + rewrite Nat.add_0_r. repeat split; [lia | exact H2|]. intros k Hk.
      destruct (Nat.eq_dec k n) as [->|]; [lra | apply H3; lia].
Qed.

Definition abs_error (s : list R) (e : R) (relative : bool) : R := if relative then e * hd 0 s else e.

Lemma truncate_spec s maxsv err relative kept rest :
  truncate s maxsv err relative = Ok (kept, rest) ->
  kept ++ rest = s /\
  (forall D, maxsv = Some D -> (length kept <= D)%nat) /\
  (err = None -> length kept = match maxsv with Some D => Nat.min D (length s) | None => length s end) /\
  (forall e, err = Some e -> 0 <= abs_error s e relative ->
     (forall k, (k < length kept)%nat -> abs_error s e relative < norm (skipn k s)) /\
     (norm rest <= abs_error s e relative \/ maxsv = Some (length kept))).
Proof.
  unfold truncate. destruct (num_keep s maxsv err relative) as [n| |] eqn:E; cbn [rbind]; try discriminate.
  intros H. injection H as <- <-. split; [apply firstn_skipn|].
  unfold num_keep in E. set (m := match maxsv with Some d => d | None => length s end) in E.
  split; [|split].
  - intros D ->. rewrite firstn_length. subst m. destruct err as [e|].
    + destruct relative; [destruct s; [discriminate|]|]; injection E as <-; lia.
    + injection E as <-. lia.
  - intros ->. injection E as <-. rewrite firstn_length, Nat.min_id. subst m. destruct maxsv; lia.
  - intros e -> He.
    assert (n = Nat.min m (count_gt (abs_error s e relative) (trunc_errs s))) as ->.
    { unfold abs_error. destruct relative; [destruct s; [discriminate|]|]; injection E as <-; reflexivity. }
    set (e' := abs_error s e relative) in *.
    clear E. rewrite trunc_errs_suffixes, count_gt_perm.
    destruct (@count_gt_spec e' (fun k => norm (skipn k s)) (length s)) as (H1 & H2 & H3).
    { intros j k Hjk. apply norm_skipn_mono. exact Hjk. }
    set (c := count_gt e' _) in *. split.
    + intros k Hk. rewrite firstn_length in Hk. apply H2. lia.
    + rewrite firstn_length. destruct (Nat.le_gt_cases c m) as [Hcm|Hcm].
      * left. rewrite (Nat.min_r m c) by exact Hcm.
        destruct (Nat.eq_dec c (length s)) as [->|Hne].
        -- rewrite skipn_all. rewrite norm_nil. exact He.
        -- apply H3. lia.
      * right. subst m. destruct maxsv as [D|]; [|exfalso; lia]. f_equal. lia.
Qed.

Lemma truncate_total s maxsv err relative : (relative = true -> s <> []) ->
  exists kept rest, truncate s maxsv err relative = Ok (kept, rest).
Proof.
  intros H. unfold truncate, num_keep. destruct err; [destruct relative; [destruct s; [exfalso; apply H; reflexivity|]|]|];
    cbn [rbind]; eexists; eexists; reflexivity.
Qed.

(** the kept values are the largest *)
Lemma truncate_largest s maxsv err relative kept rest :
  StronglySorted Rge s -> truncate s maxsv err relative = Ok (kept, rest) ->
  forall x y, In x kept -> In y rest -> x >= y.
Proof.
  intros Hs H. apply truncate_spec in H as [E _]. subst s.
  induction kept as [|a k IH]; intros x y Hx Hy; [contradiction|].
  cbn in Hs. inversion Hs as [|? ? Hs' Hf]; subst. destruct Hx as [<-|Hx]; [|apply IH; assumption].
  rewrite Forall_forall in Hf. apply Hf. apply in_or_app. right. exact Hy.
Qed.
