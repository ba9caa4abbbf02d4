From Coq Require Import Reals List Lia Lra ZArith Sorting.Sorted Permutation.
From Verif Require Import Prelude Res SvdTrunc SvdTruncFacts SymSvd SymSvdFacts.
Import ListNotations.
Set Implicit Arguments.
Unset Strict Implicit.
Local Open Scope R_scope.

Lemma firstn_of_rev A (l : list A) K : (K <= length l)%nat -> firstn K (rev l) = rev (skipn (length l - K) l).
Proof.
  intros H. rewrite <- (firstn_skipn (length l - K) l) at 1. rewrite rev_app_distr, firstn_app, rev_length, skipn_length.
  replace (K - (length l - (length l - K)))%nat with 0%nat by lia. cbn [firstn]. rewrite app_nil_r, firstn_all2; [reflexivity|].
  rewrite rev_length, skipn_length. lia.
Qed.
Lemma concat_app2 A (f g : nat -> list A) l : Permutation (concat (map f l) ++ concat (map g l)) (concat (map (fun n => f n ++ g n) l)).
Proof.
  induction l as [|x r IH]; cbn; [constructor|]. rewrite <- IH, <- !app_assoc. apply Permutation_app_head.
  rewrite !app_assoc. apply Permutation_app_tail, Permutation_app_comm.
Qed.
Lemma map_nth_seq A (l : list A) d : map (fun n => nth n l d) (seq 0 (length l)) = l.
Proof.
  apply (nth_ext _ _ d d); rewrite map_length, seq_length; [reflexivity|]. intros n Hn.
  rewrite (nth_indep _ d (nth 0 l d)) by (rewrite map_length, seq_length; exact Hn).
  rewrite (map_nth (fun n => nth n l d)), seq_nth by exact Hn. reflexivity.
Qed.
Lemma nth_map_seq A (f : nat -> A) m n d : (n < m)%nat -> nth n (map f (seq 0 m)) d = f n.
Proof.
  intros H. rewrite (nth_indep _ d (f 0%nat)) by (rewrite map_length, seq_length; exact H). rewrite (map_nth f), seq_nth by exact H. reflexivity.
Qed.

Lemma positive_prefix l D : StronglySorted Rge l -> (D <= length (filter (Rltb 0) l))%nat -> Forall (Rlt 0) (firstn D l).
Proof.
  intros S. revert D. induction S as [|x r Sr IH F]; intros D H; [destruct D; constructor|].
  cbn [filter] in H. destruct (Rltb 0 x) eqn:E.
  - apply Rltb_true in E. destruct D; [constructor|]. cbn [firstn]. constructor; [exact E|]. apply IH. cbn in H. lia.
  - assert (~ 0 < x) as Hx by (intros Hx; apply Rltb_true in Hx; congruence).
    assert (filter (Rltb 0) r = []) as E'.
    { clear IH H E Sr. induction r as [|y t IHt]; [reflexivity|]. inversion F as [|? ? Fy Ft]; subst. cbn [filter].
      destruct (Rltb 0 y) eqn:Ey; [apply Rltb_true in Ey; lra|]. apply IHt. exact Ft. }
    rewrite E' in H. cbn in H. replace D with 0%nat by lia. constructor.
Qed.
Lemma norm_zero l : Forall (Rle 0) l -> StronglySorted Rge l -> hd 0 l <= 0 -> norm l = 0.
Proof.
  intros N So H. destruct l as [|x r]; [apply norm_nil|]. cbn in H. inversion So as [|? ? _ F]; subst.
  assert (x :: r = [] ++ repeat 0 (S (length r))) as ->; [|rewrite norm_app_zeros; apply norm_nil].
  cbn. inversion N as [|? ? Nx Nr]; subst. f_equal; [lra|]. clear N So. induction r as [|y t IH]; [reflexivity|]. cbn.
  inversion F; inversion Nr; subst. f_equal; [lra|]. apply IH; assumption.
Qed.
Lemma positive_errs l K : Forall (Rle 0) l -> StronglySorted Rge l -> (K <= length l)%nat -> (forall k, (k < K)%nat -> 0 < norm (skipn k l)) -> Forall (Rlt 0) (firstn K l).
Proof.
  revert K. induction l as [|x r IH]; intros K N So HK H; [destruct K; constructor|]. destruct K as [|K]; [constructor|]. cbn [firstn].
  inversion N as [|? ? Nx Nr]; inversion So as [|? ? Sr F]; subst. constructor.
  - specialize (H 0%nat ltac:(lia)). cbn [skipn] in H. destruct (Rlt_dec 0 x) as [|Hx]; [assumption|].
    rewrite norm_zero in H; [lra | assumption | assumption | cbn; lra].
  - apply IH; try assumption; [cbn in HK; lia|]. intros k Hk. specialize (H (S k) ltac:(lia)). exact H.
Qed.

Section Main.
  Variable svs : list (list R).
  Notation nc := (length svs).
  Hypothesis sorted : Forall (StronglySorted Rge) svs.
  Hypothesis nonneg : Forall (Forall (Rle 0)) svs.
  Notation all := (all_values svs).

  Lemma all_len : length all = orig_num_singvals svs.
  Proof. apply all_length. Qed.

  Lemma cut_result K : (K <= length all)%nat -> Forall (Rlt 0) (firstn K all) ->
    let new := map (values svs (snd (cut svs K))) (seq 0 nc) in
    let disc := map (disc_values svs (fst (cut svs K)) (snd (cut svs K))) (seq 0 nc) in
    (forall n, nth n new [] ++ nth n disc [] = nth n svs []) /\
    Permutation (concat new) (firstn K all) /\ Permutation (concat disc) (skipn K all).
  Proof.
    intros HK Hp new disc. destruct (desc_eq sorted nonneg) as [P HP].
    assert (length all + P = length (argsort svs))%nat as LA by (rewrite <- (desc_length svs), HP, app_length, repeat_length; reflexivity).
    assert (incl (snd (cut svs K)) (argsort svs)) as Hin by (intros i Hi; cbn in Hi; rewrite <- (firstn_skipn (length (argsort svs) - K) (argsort svs)); apply in_or_app; right; exact Hi).
    assert (Permutation (concat new) (firstn K all)) as HN.
    { unfold new. rewrite (values_all Hin). rewrite Permutation_rev, <- map_rev. cbn [snd cut]. rewrite <- firstn_of_rev by lia.
      rewrite <- firstn_map, map_rev. fold (desc svs). rewrite HP, firstn_app. replace (K - length all)%nat with 0%nat by lia.
      cbn [firstn]. rewrite app_nil_r. reflexivity. }
    assert (forall n, (n < nc)%nat -> values svs (snd (cut svs K)) n ++ disc_values svs (fst (cut svs K)) (snd (cut svs K)) n = nth n svs []) as HB.
    { intros n Hn. assert (fst (cut svs K) ++ snd (cut svs K) = argsort svs) as Hc by apply firstn_skipn.
      pose proof (values_split sorted nonneg Hn Hc) as E. unfold ext in E. unfold disc_values.
      replace (nth n (orig_block_size svs) 0%nat) with (length (nth n svs [])) by (unfold orig_block_size; symmetry; apply (map_nth (@length R) svs [])).
      set (k := values svs (snd (cut svs K)) n) in *. set (d := values svs (fst (cut svs K)) n) in *. set (s := nth n svs []) in *.
      assert (Forall (Rlt 0) k) as Hk.
      { apply Forall_forall. intros x Hx. rewrite Forall_forall in Hp. apply Hp. apply (Permutation_in _ HN). apply in_concat. exists k. split; [|exact Hx].
        unfold new. apply in_map_iff. exists n. split; [reflexivity | apply in_seq; lia]. }
      assert (length k <= length s)%nat as Hl.
      { destruct (Nat.le_gt_cases (length k) (length s)) as [|G]; [assumption|]. exfalso.
        assert (nth (length s) (k ++ d) 1 = 0) as E0.
        { rewrite E, app_nth2, Nat.sub_diag by lia. destruct (max_D svs - length s)%nat as [|z] eqn:Ez; [|reflexivity].
          exfalso. assert (length (k ++ d) = length (s ++ repeat 0 0)) as EL by (rewrite E; reflexivity). rewrite !app_length in EL. cbn [repeat length] in EL. lia. }
        rewrite app_nth1 in E0 by exact G. assert (In 0 k) as H0 by (rewrite <- E0; apply nth_In; exact G).
        rewrite Forall_forall in Hk. specialize (Hk 0 H0). lra. }
      unfold slice_to, stop. destruct (Z.ltb_spec (Z.of_nat (length s) - Z.of_nat (length k)) 0); [lia|].
      replace (Z.to_nat (Z.of_nat (length s) - Z.of_nat (length k))) with (length s - length k)%nat by lia.
      transitivity (firstn (length s) (k ++ d)).
      - rewrite firstn_app. rewrite (firstn_all2 k Hl). reflexivity.
      - rewrite E, firstn_app, firstn_all, Nat.sub_diag. cbn. apply app_nil_r. }
    repeat split.
    - intros n. destruct (Nat.lt_ge_cases n nc) as [Hn|Hn].
      + unfold new, disc. rewrite !nth_map_seq by exact Hn. apply HB, Hn.
      + rewrite !nth_overflow by (unfold new, disc; rewrite ?map_length, ?seq_length; exact Hn). reflexivity.
    - exact HN.
    - apply (Permutation_app_inv_l (firstn K all)). rewrite firstn_skipn.
      transitivity (concat svs); [|symmetry; apply all_perm].
      transitivity (concat new ++ concat disc); [apply Permutation_app_tail; symmetry; exact HN|]. unfold new, disc. rewrite concat_app2.
      rewrite (map_ext_in _ (fun n => nth n svs [])) by (intros n Hn; apply in_seq in Hn; apply HB; lia). rewrite map_nth_seq. reflexivity.
  Qed.

  Lemma first_max_ok : svs <> [] -> Forall (fun s => s <> []) svs -> exists m, first_max svs = Ok m.
  Proof.
    intros N H. unfold first_max.
    assert (exists hs, mapr (fun s : list R => match s with [] => Raise | x :: _ => Ok x end) svs = Ok hs /\ length hs = nc) as (hs & -> & L).
    { clear -H. induction H as [|s r Hs Hr IH]; [exists []; split; reflexivity|]. destruct IH as (hs & E & L). destruct s as [|x s]; [congruence|].
      exists (x :: hs). cbn. rewrite E. cbn. split; [reflexivity | lia]. }
    cbn [rbind]. destruct hs; [destruct svs; [congruence | discriminate]|]. eexists. reflexivity.
  Qed.

  Theorem sym_truncate_spec maxsv err relative :
    Forall (fun s => s <> []) svs ->
    (err <> None -> relative = true -> svs <> []) ->
    (forall D, maxsv = Some D -> (0 < D)%nat) ->
    (forall e, err = Some e -> 0 <= e) ->
    (err = None -> forall D, maxsv = Some D -> (D <= length (filter (Rltb 0) (concat svs)) \/ length (concat svs) <= D)%nat) ->
    exists new disc kept rest,
      sym_truncate svs maxsv err relative = Ok (new, disc) /\
      length new = length svs /\ (length disc <= length svs)%nat /\ (forall n, nth n new [] ++ nth n disc [] = nth n svs []) /\
      truncate all maxsv err relative = Ok (kept, rest) /\ Permutation (concat new) kept /\ Permutation (concat disc) rest.
  Proof.
    intros Hne Hrel HD He Hpos.
    assert (length (concat svs) = length all) as LC by (symmetry; apply Permutation_length, all_perm).
    destruct (desc_eq sorted nonneg) as [P HP].
    assert (length all + P = length (argsort svs))%nat as LA by (rewrite <- (desc_length svs), HP, app_length, repeat_length; reflexivity).
    pose proof (all_nonneg nonneg) as AN. pose proof (all_sorted svs) as AS.
    set (maxsv' := match maxsv with Some m => if (orig_num_singvals svs <=? m)%nat then None else Some m | None => None end).
    assert (match maxsv' with None => match maxsv with None => True | Some D => (length all <= D)%nat end | Some m => maxsv = Some m /\ (0 < m < orig_num_singvals svs)%nat end) as HM.
    { unfold maxsv'. destruct maxsv as [D|]; [|exact I]. specialize (HD D eq_refl). rewrite all_len. destruct (Nat.leb_spec (orig_num_singvals svs) D); [lia|]. split; [reflexivity | lia]. }
    destruct err as [e|].
    - assert (exists e', abs_err svs e relative = Ok e' /\ 0 <= e' /\ forall m : nat,
        num_keep all maxsv (Some e) relative = Ok (Nat.min match maxsv with Some d => d | None => length all end (count_gt e' (trunc_errs all)))) as (e' & Ee & He' & Hk).
      { specialize (He e eq_refl). unfold abs_err. destruct relative; cbn [andb].
        - assert (svs <> []) as N by (apply Hrel; [discriminate | reflexivity]).
          destruct (Nat.ltb_spec 0 (length svs)) as [_|G]; [|destruct svs; [congruence | cbn in G; lia]].
          destruct (first_max_ok N Hne) as [m Em]. rewrite Em. cbn [rbind]. exists (e * m).
          pose proof (first_max_spec sorted nonneg Hne Em) as Hh. split; [reflexivity|].
          assert (all <> []) as NA.
          { intros E. assert (concat svs = []) as E' by (apply length_zero_iff_nil; rewrite LC, E; reflexivity).
            destruct svs as [|s r]; [congruence|]. inversion Hne; subst. destruct s; [congruence | discriminate]. }
          unfold num_keep. destruct all as [|a t]; [congruence|]. cbn in Hh. subst m. split; [|reflexivity].
          inversion AN; subst. apply Rmult_le_pos; assumption.
        - exists e. repeat split. exact He. }
      unfold sym_truncate. fold maxsv'. rewrite (err_step_cut Ee). cbn [rbind]. rewrite HP, count_zeros by exact He'.
      set (c := count_gt e' (trunc_errs all)) in *. assert (c <= length all)%nat as Hc by apply count_le.
      set (K := match maxsv' with None => c | Some m => Nat.min m c end).
      assert (max_step svs maxsv' (cut svs c) = cut svs K) as ->.
      { unfold K. destruct maxsv' as [m|]; [|reflexivity]. apply max_step_cut; try apply HM. lia. }
      assert (K <= c)%nat as HK by (unfold K; destruct maxsv'; lia).
      destruct (@cut_result K) as (H1 & H2 & H3); [lia| |].
      { apply positive_errs; [exact AN | exact AS | lia|]. intros k Hk'.
        destruct (@count_gt_spec e' (fun k => norm (skipn k all)) (length all)) as (_ & G & _); [intros; apply norm_skipn_mono; assumption|].
        eapply Rle_lt_trans; [exact He'|]. apply G. unfold c in HK. rewrite trunc_errs_suffixes, count_gt_perm in HK. lia. }
      eexists _, _, (firstn K all), (skipn K all). split; [reflexivity|]. split; [rewrite map_length, seq_length; reflexivity|].
      split; [rewrite map_length, seq_length; apply Nat.le_refl|]. split; [exact H1|]. split; [|split; assumption]. unfold truncate. rewrite (Hk 0%nat). cbn [rbind].
      assert (Nat.min match maxsv with Some d => d | None => length all end c = K) as ->; [|reflexivity].
      unfold K. destruct maxsv' as [m|]; [destruct HM as [-> _]; reflexivity|]. destruct maxsv; lia.
    - unfold sym_truncate. fold maxsv'. unfold truncate, num_keep. destruct maxsv' as [m|].
      + destruct HM as [-> HM]. cbn [rbind err_step]. rewrite Nat.min_id.
        assert (([], argsort svs) = cut svs (length (argsort svs))) as -> by (unfold cut; rewrite Nat.sub_diag; reflexivity).
        rewrite max_step_cut by lia. rewrite <- all_len in HM. rewrite Nat.min_l by lia.
        destruct (@cut_result m) as (H1 & H2 & H3); [lia| |].
        { apply positive_prefix; [exact AS|]. rewrite (Permutation_length (Permutation_filter _ (all_perm svs))).
          destruct (Hpos eq_refl m eq_refl); [assumption | lia]. }
        eexists _, _, _, _. split; [reflexivity|]. split; [rewrite map_length, seq_length; reflexivity|]. split; [rewrite map_length, seq_length; apply Nat.le_refl|]. split; [exact H1|]. split; [reflexivity|]. split; assumption.
      + rewrite Nat.min_id. cbn [rbind]. exists svs, [], all, []. repeat split.
        * cbn. lia.
        * intros n. destruct n; apply app_nil_r.
        * destruct maxsv as [D|]; rewrite firstn_all2, skipn_all2 by lia; reflexivity.
        * symmetry. apply all_perm.
        * constructor.
  Qed.
End Main.
