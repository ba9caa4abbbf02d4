(** * SymSvdLargest: the truncation across blocks in explicit terms *)
From Coq Require Import Permutation Reals List Lia Lra Sorting.Sorted.
From Verif Require Import Prelude Res SvdTrunc SvdTruncFacts SymSvd SymSvdFacts SymSvdMain.
Import ListNotations.
Set Implicit Arguments.
Unset Strict Implicit.
Local Open Scope R_scope.

Lemma norm_perm l l' : Permutation l l' -> norm l = norm l'.
Proof.
  intros P. unfold norm. f_equal. induction P; cbn; lra.
Qed.
Lemma sorted_split (kept rest l : list R) : Permutation l (kept ++ rest) -> StronglySorted Rge l -> (forall x y, In x kept -> In y rest -> x >= y) ->
  Permutation kept (firstn (length kept) l) /\ Permutation rest (skipn (length kept) l).
Proof.
  intros P S H. set (k := all_values [kept]). set (r := all_values [rest]).
  assert (Permutation k kept) as Pk by (unfold k; rewrite all_perm; cbn; rewrite app_nil_r; reflexivity).
  assert (Permutation r rest) as Pr by (unfold r; rewrite all_perm; cbn; rewrite app_nil_r; reflexivity).
  assert (StronglySorted Rge k) as Sk by apply all_sorted. assert (StronglySorted Rge r) as Sr by apply all_sorted. clearbody k r.
  assert (l = k ++ r) as ->.
  { apply rge_unique; [exact S | | rewrite P, Pk, Pr; reflexivity].
    assert (forall x y, In x k -> In y r -> x >= y) as H' by (intros x y Hx Hy; apply H; [apply (Permutation_in _ Pk), Hx | apply (Permutation_in _ Pr), Hy]).
    clear - Sk Sr H'. induction Sk as [|a k Sk IH Fa]; [exact Sr|]. cbn. constructor.
    - apply IH. intros x y Hx Hy. apply H'; [right; exact Hx | exact Hy].
    - apply Forall_app. split; [exact Fa|]. apply Forall_forall. intros y Hy. apply H'; [left; reflexivity | exact Hy]. }
  rewrite <- (Permutation_length Pk), firstn_app, skipn_app, Nat.sub_diag, firstn_all, skipn_all. cbn [firstn skipn app]. rewrite app_nil_r. split; symmetry; assumption.
Qed.
Lemma sorted_max l m : StronglySorted Rge l -> In m l -> (forall x, In x l -> x <= m) -> hd 0 l = m.
Proof.
  intros S Hm H. destruct l as [|a l]; [contradiction|]. cbn. inversion S as [|? ? _ F]; subst. rewrite Forall_forall in F.
  assert (a <= m) by (apply H; left; reflexivity). destruct Hm as [|Hm]; [assumption|]. specialize (F m Hm). lra.
Qed.

Theorem sym_truncate_explicit svs maxsv err relative :
  Forall (StronglySorted Rge) svs -> Forall (Forall (Rle 0)) svs -> Forall (fun s => s <> []) svs ->
  (err <> None -> relative = true -> svs <> []) ->
  (forall D, maxsv = Some D -> (0 < D)%nat) -> (forall e, err = Some e -> 0 <= e) ->
  (err = None -> forall D, maxsv = Some D -> (D <= length (filter (fun x => if Rlt_dec 0 x then true else false) (concat svs)) \/ length (concat svs) <= D)%nat) ->
  exists new disc, sym_truncate svs maxsv err relative = Ok (new, disc) /\
    length new = length svs /\ (length disc <= length svs)%nat /\ (forall n, nth n new [] ++ nth n disc [] = nth n svs []) /\
    (forall x y, In x (concat new) -> In y (concat disc) -> x >= y) /\
    (forall D, maxsv = Some D -> (length (concat new) <= D)%nat) /\
    (err = None -> length (concat new) = match maxsv with Some D => Nat.min D (length (concat svs)) | None => length (concat svs) end) /\
    (forall e m, err = Some e -> In m (concat svs) -> (forall x, In x (concat svs) -> x <= m) ->
       let e' := if relative then e * m else e in
       (norm (concat disc) <= e' \/ maxsv = Some (length (concat new))) /\
       (forall kept rest, Permutation (kept ++ rest) (concat svs) -> (forall x y, In x kept -> In y rest -> x >= y) ->
          (length kept < length (concat new))%nat -> e' < norm rest)).
Proof.
  intros S1 S2 S3 H1 H2 H3 H4.
  destruct (@sym_truncate_spec svs S1 S2 maxsv err relative S3 H1 H2 H3 H4) as (new & disc & kept & rest & E1 & E2 & E3 & E4 & E5 & P1 & P2).
  exists new, disc. do 4 (split; [assumption|]).
  pose proof (truncate_spec E5) as (T1 & T2 & T3 & T4). pose proof (all_sorted svs) as AS. pose proof (all_perm svs) as AP.
  pose proof (truncate_largest AS E5) as TL. rewrite (Permutation_length P1). rewrite (Permutation_length AP) in T3.
  split; [intros x y Hx Hy; apply TL; [apply (Permutation_in _ P1), Hx | apply (Permutation_in _ P2), Hy]|].
  split; [exact T2|]. split; [exact T3|]. intros e m He Hm Mm e'.
  assert (hd 0 (all_values svs) = m) as Hh.
  { apply sorted_max; [exact AS | apply (Permutation_in _ (Permutation_sym AP)), Hm | intros x Hx; apply Mm, (Permutation_in _ AP), Hx]. }
  assert (abs_error (all_values svs) e relative = e') as Ea by (unfold abs_error, e'; rewrite Hh; reflexivity).
  destruct (T4 e He) as [T5 T6].
  { rewrite Ea. unfold e'. specialize (H3 e He). destruct relative; [|exact H3].
    assert (0 <= m); [|nra]. apply in_concat in Hm as (b & Hb & Hm). rewrite Forall_forall in S2. specialize (S2 b Hb). rewrite Forall_forall in S2. apply S2, Hm. }
  rewrite Ea in T5, T6. split; [rewrite (norm_perm P2); exact T6|].
  intros kept' rest' P' H' L'. destruct (@sorted_split kept' rest' (all_values svs)) as [_ Q]; [rewrite AP; symmetry; exact P' | exact AS | exact H' |].
  rewrite (norm_perm Q). apply T5, L'.
Qed.
