(** * Proofs about InfiniteMPO *)
From Coq Require Import ZArith Lia.
From Verif Require Import Prelude Algebra Tensor TensorFacts Res MpoInf MpoInfSpec.
Set Implicit Arguments.
Unset Strict Implicit.
Open Scope list_scope.
Open Scope nat_scope.

Section Lists.
  Variable A : Type.
  Implicit Types l : list A.

  Lemma py_get_nat l n : py_get l (Z.of_nat n) = match nth_error l n with Some x => Ok x | None => Raise end.
  Proof.
    unfold py_get. destruct (Z.ltb_spec (Z.of_nat n) 0); [lia|]. destruct (Z.ltb_spec (Z.of_nat n) 0); [lia|]. rewrite Nat2Z.id. reflexivity.
  Qed.
  Lemma mapr_ext B C (f g : B -> res C) m : (forall x, In x m -> f x = g x) -> mapr f m = mapr g m.
  Proof.
    induction m as [|x m IH]; intros H; [reflexivity|]. cbn [mapr]. rewrite (H x (or_introl eq_refl)), IH; [reflexivity|].
    intros y Hy. apply H. right. exact Hy.
  Qed.
  Lemma mapr_app B C (f : B -> res C) m m' x y : mapr f m = Ok x -> mapr f m' = Ok y -> mapr f (m ++ m') = Ok (x ++ y).
  Proof.
    revert x. induction m as [|z m IH]; intros x E E'; cbn [mapr app] in *; [injection E as <-; exact E'|].
    destruct (f z) as [v| |]; try discriminate. cbn [rbind] in *. destruct (mapr f m) as [w| |]; try discriminate.
    injection E as <-. rewrite (IH w eq_refl E'). reflexivity.
  Qed.
  Lemma mapr_map B C D (f : C -> res D) (g : B -> C) m : mapr f (map g m) = mapr (fun x => f (g x)) m.
  Proof. induction m as [|x m IH]; [reflexivity|]. cbn [mapr map]. rewrite IH. reflexivity. Qed.
  Lemma mapr_raise B C (f : B -> res C) m x : (forall y, In y m -> f y <> Fuel) -> In x m -> f x = Raise -> mapr f m = Raise.
  Proof.
    induction m as [|z m IH]; intros F Hin E; [contradiction|]. cbn [mapr]. destruct Hin as [-> | Hin]; [rewrite E; reflexivity|].
    destruct (f z) as [v| |] eqn:Ez; [|reflexivity|destruct (F z (or_introl eq_refl) Ez)]. cbn [rbind].
    rewrite (IH (fun y Hy => F y (or_intror Hy)) Hin E). reflexivity.
  Qed.
  Lemma py_get_fuel l z : py_get l z <> Fuel.
  Proof. unfold py_get. cbv zeta. repeat match goal with |- context [(?a <? 0)%Z] => destruct (a <? 0)%Z end; try discriminate; destruct (nth_error _ _); discriminate. Qed.

  Lemma slice l : forall c a, a + c <= length l -> mapr (py_get l) (map Z.of_nat (seq a c)) = Ok (firstn c (skipn a l)).
  Proof.
    induction c as [|c IH]; intros a H; [reflexivity|]. cbn [seq map mapr]. rewrite py_get_nat.
    destruct (nth_error l a) as [x|] eqn:E; [|apply nth_error_None in E; lia]. cbn [rbind]. rewrite (IH (S a)) by lia. cbn [rbind].
    assert (Es : skipn a l = x :: skipn (S a) l).
    { clear - E. revert l E. induction a as [|a IH]; intros [|y l] E; try discriminate; [injection E as ->; reflexivity|]. exact (IH l E). }
    rewrite Es. reflexivity.
  Qed.
  Lemma py_range_nat a b : a <= b -> py_range (Z.of_nat a) (Z.of_nat b) = map Z.of_nat (seq a (b - a)).
  Proof.
    intros H. unfold py_range. replace (Z.to_nat (Z.of_nat b - Z.of_nat a)) with (b - a) by lia.
    replace (seq a (b - a)) with (map (fun k => a + k) (seq 0 (b - a))).
    - rewrite map_map. apply map_ext. intros k. lia.
    - generalize (b - a). intros n. clear. revert a. induction n as [|n IH]; intros a; [reflexivity|].
      cbn [seq map]. f_equal; [lia|]. rewrite <- (IH (S a)), <- seq_shift, map_map. apply map_ext. intros k. lia.
  Qed.

  Theorem roll_ok l k : k <= length l -> mpo_roll (Z.of_nat k) l = Ok (rotate k l).
  Proof.
    intros H. unfold mpo_roll. rewrite py_range_nat, slice by lia. cbn [rbind].
    change 0%Z with (Z.of_nat 0). rewrite py_range_nat, slice by lia. cbn [rbind skipn]. rewrite Nat.sub_0_r.
    rewrite firstn_all2 by (rewrite skipn_length; lia). reflexivity.
  Qed.
  Theorem roll_too_far l k : length l < k -> mpo_roll (Z.of_nat k) l = Raise.
  Proof.
    intros H. unfold mpo_roll. replace (py_range (Z.of_nat k) (Z.of_nat (length l))) with (@nil Z).
    - cbn [mapr rbind]. rewrite (@mapr_raise _ _ (py_get l) _ (Z.of_nat (length l))); [reflexivity|intros; apply py_get_fuel| |].
      + change 0%Z with (Z.of_nat 0). rewrite py_range_nat by lia. apply in_map, in_seq. lia.
      + rewrite py_get_nat. rewrite (proj2 (nth_error_None l (length l))); [reflexivity|lia].
    - unfold py_range. replace (Z.to_nat (Z.of_nat (length l) - Z.of_nat k)) with 0 by lia. reflexivity.
  Qed.
  (** a negative number of sites puts the last tensors in front and keeps all the others *)
  Theorem roll_negative l m : 1 <= m <= length l -> mpo_roll (- Z.of_nat m) l = Ok (skipn (length l - m) l ++ l).
  Proof.
    intros H. unfold mpo_roll.
    replace (py_range (- Z.of_nat m) (Z.of_nat (length l))) with (map (fun k => (- Z.of_nat m + Z.of_nat k)%Z) (seq 0 m) ++ map Z.of_nat (seq 0 (length l))).
    - rewrite (@mapr_app _ _ (py_get l) _ _ (skipn (length l - m) l) l).
      + cbn [rbind]. replace (py_range 0 (- Z.of_nat m)) with (@nil Z); [cbn [mapr rbind]; rewrite app_nil_r; reflexivity|].
        unfold py_range. replace (Z.to_nat (- Z.of_nat m - 0)) with 0 by lia. reflexivity.
      + rewrite mapr_map. rewrite (@mapr_ext _ _ _ (fun k => py_get l (Z.of_nat (length l - m + k)))).
        * rewrite <- (mapr_map (py_get l) (fun k => Z.of_nat (length l - m + k))).
          replace (map (fun k => Z.of_nat (length l - m + k)) (seq 0 m)) with (map Z.of_nat (seq (length l - m) m)).
          -- rewrite slice by lia. rewrite firstn_all2 by (rewrite skipn_length; lia). reflexivity.
          -- pose proof (@py_range_nat (length l - m) (length l)) as E. unfold py_range in E.
             replace (length l - (length l - m)) with m in E by lia. rewrite <- E by lia.
             replace (Z.to_nat (Z.of_nat (length l) - Z.of_nat (length l - m))) with m by lia. apply map_ext. intros k. lia.
        * intros k Hk. apply in_seq in Hk. rewrite py_get_nat. unfold py_get.
          destruct (Z.ltb_spec (- Z.of_nat m + Z.of_nat k) 0); [|lia].
          destruct (Z.ltb_spec (- Z.of_nat m + Z.of_nat k + Z.of_nat (length l)) 0); [lia|].
          replace (Z.to_nat (- Z.of_nat m + Z.of_nat k + Z.of_nat (length l))) with (length l - m + k) by lia. reflexivity.
      + rewrite slice by lia. cbn [skipn]. rewrite firstn_all. reflexivity.
    - unfold py_range. replace (Z.to_nat (Z.of_nat (length l) - - Z.of_nat m)) with (m + length l) by lia.
      rewrite seq_app, map_app. f_equal. cbn [Nat.add].
      pose proof (@py_range_nat m (m + length l)) as E. replace (m + length l - m) with (length l) in E by lia.
      clear E. generalize (length l). intros n. clear H. replace (seq m n) with (map (fun k => m + k) (seq 0 n)).
      + rewrite map_map. apply map_ext. intros k. lia.
      + revert m. induction n as [|n IH]; intros m; [reflexivity|]. cbn [seq map]. f_equal; [lia|].
        rewrite <- (IH (S m)), <- seq_shift, map_map. apply map_ext. intros k. lia.
  Qed.

  Lemma rotate_length k l : length (rotate k l) = length l.
  Proof. unfold rotate. rewrite app_length, skipn_length, firstn_length. lia. Qed.
  Lemma rotate_nth k l i : k <= length l -> i < length l -> nth_error (rotate k l) i = nth_error l ((k + i) mod length l).
  Proof.
    intros Hk Hi. assert (E : l = firstn k l ++ skipn k l) by (symmetry; apply firstn_skipn).
    assert (Lf : length (firstn k l) = k) by (rewrite firstn_length; lia).
    assert (Ls : length (skipn k l) = length l - k) by apply skipn_length.
    unfold rotate. rewrite E at 3. destruct (le_lt_dec (length l - k) i) as [G|G].
    - rewrite nth_error_app2 by lia. rewrite Ls.
      replace ((k + i) mod length l) with (i - (length l - k)).
      + rewrite nth_error_app1 by lia. reflexivity.
      + replace (k + i) with (i - (length l - k) + 1 * length l) by lia. rewrite Nat.mod_add by lia. rewrite Nat.mod_small by lia. reflexivity.
    - rewrite nth_error_app1 by lia. rewrite Nat.mod_small by lia. rewrite nth_error_app2 by lia. f_equal. lia.
  Qed.
  (** rolling on until the whole ring has passed gives the list back *)
  Theorem roll_back l k : k <= length l -> rbind (mpo_roll (Z.of_nat k) l) (mpo_roll (Z.of_nat (length l - k))) = Ok l.
  Proof.
    intros H. rewrite roll_ok by exact H. cbn [rbind]. rewrite roll_ok by (rewrite rotate_length; lia). f_equal. unfold rotate.
    assert (Ls : length (skipn k l) = length l - k) by apply skipn_length.
    rewrite <- Ls, skipn_app, skipn_all, Nat.sub_diag, firstn_app, firstn_all, Nat.sub_diag. cbn [skipn firstn app].
    rewrite app_nil_r. apply firstn_skipn.
  Qed.
End Lists.

Section Ring.
  Context {R : csr}.
  Add Ring Rring : (rsr R).
  Notation tensor := (tensor R).

  Lemma last_indep A (c : list A) d d' : c <> [] -> last c d = last c d'.
  Proof. induction c as [|x c IH] using rev_ind; [congruence|]. intros _. rewrite !last_last. reflexivity. Qed.
  Lemma along_app : forall (ts us : list tensor) l b c s s' r r', length b = length ts -> length s = length ts -> length s' = length ts ->
    along l (ts ++ us) (b ++ c) (s ++ r) (s' ++ r') = along l ts b s s' *! along (last b l) us c r r'.
  Proof.
    induction ts as [|t ts IH]; intros us l b c s s' r r' Hb Hs Hs'.
    - destruct b; [|discriminate]. destruct s; [|discriminate]. destruct s'; [|discriminate]. cbn. ring.
    - destruct b as [|x b]; [discriminate|]. destruct s as [|i s]; [discriminate|]. destruct s' as [|j s']; [discriminate|].
      cbn [app along]. cbn [length] in Hb, Hs, Hs'. rewrite IH by lia.
      replace (last (x :: b) l) with (last b x); [ring|]. destruct b as [|y b]; [reflexivity|].
      change (last (x :: y :: b) l) with (last (y :: b) l). apply last_indep. discriminate.
  Qed.
  Lemma last_app A (b c : list A) d : last (b ++ c) d = last c (last b d).
  Proof.
    induction c as [|x c IH] using rev_ind; [rewrite app_nil_r; reflexivity|]. rewrite app_assoc, !last_last. reflexivity.
  Qed.

  Lemma ring_app (ts us : list tensor) s s' r r' : length s = length ts -> length s' = length ts -> length r = length us -> length r' = length us ->
    ring_entry (us ++ ts) (r ++ s) (r' ++ s') = ring_entry (ts ++ us) (s ++ r) (s' ++ r').
  Proof.
    intros H1 H2 H3 H4. destruct ts as [|t ts]; [destruct s; [|discriminate]; destruct s'; [|discriminate]; rewrite !app_nil_r; reflexivity|].
    destruct us as [|u us]; [destruct r; [|discriminate]; destruct r'; [|discriminate]; rewrite !app_nil_r; reflexivity|].
    unfold ring_entry. rewrite !map_app, !lsum_idxs_app. rewrite lsum_swap. apply lsum_ext. intros b Hb. apply lsum_ext. intros c Hc.
    apply In_idxs, valid_length in Hb. apply In_idxs, valid_length in Hc. rewrite map_length in Hb, Hc.
    rewrite !last_app. rewrite !along_app by assumption.
    assert (Nb : b <> []) by (destruct b; [discriminate|congruence]). assert (Nc : c <> []) by (destruct c; [discriminate|congruence]).
    assert (exists v, forall d, last b d = v) as (v & Ev) by (exists (last b 0); intros d; apply last_indep, Nb).
    assert (exists w, forall d, last c d = w) as (w & Ew) by (exists (last c 0); intros d; apply last_indep, Nc).
    rewrite !Ev, !Ew. ring.
  Qed.
  (** the operator on the ring, with its sites numbered from the new first one *)
  Theorem roll_ring (ts : list tensor) k s s' : k <= length ts -> length s = length ts -> length s' = length ts ->
    exists us, mpo_roll (Z.of_nat k) ts = Ok us /\ ring_entry us (rotate k s) (rotate k s') = ring_entry ts s s'.
  Proof.
    intros H Hs Hs'. exists (rotate k ts). split; [apply roll_ok, H|]. unfold rotate. rewrite ring_app; rewrite ?firstn_length, ?skipn_length; try lia.
    rewrite !firstn_skipn. reflexivity.
  Qed.

  Lemma closed_accepted (ts : list tensor) : ts <> [] -> closed_ring ts -> infinite_mpo ts = Ok ts.
  Proof.
    intros N H. destruct ts as [|t ts]; [congruence|]. unfold infinite_mpo.
    assert (E : nth_error (t :: ts) (length ts) = Some (last (t :: ts) t)).
    { clear. destruct (exists_last (l := t :: ts)) as (a & x & E); [discriminate|]. rewrite E, last_last.
      assert (L : length ts = length a) by (apply (f_equal (@length _)) in E; rewrite app_length in E; cbn in E; lia).
      rewrite L, nth_error_app2, Nat.sub_diag by lia. reflexivity. }
    rewrite (H (length ts) _ t E); [rewrite Nat.eqb_refl; reflexivity|]. cbn [length]. rewrite Nat.mod_same by lia. reflexivity.
  Qed.
  Theorem roll_closed (ts : list tensor) k : ts <> [] -> k <= length ts -> closed_ring ts ->
    exists us, mpo_roll (Z.of_nat k) ts = Ok us /\ closed_ring us /\ infinite_mpo us = Ok us.
  Proof.
    intros N Hk H. exists (rotate k ts). split; [apply roll_ok, Hk|].
    assert (L0 : 0 < length ts) by (destruct ts; [congruence|cbn; lia]).
    assert (C : closed_ring (rotate k ts)).
    { intros i t t' Ht Ht'. assert (Hi : i < length ts) by (rewrite <- (rotate_length k ts); apply nth_error_Some; rewrite Ht; discriminate).
      rewrite rotate_length in Ht'. rewrite rotate_nth in Ht by assumption.
      rewrite rotate_nth in Ht' by (try assumption; apply Nat.mod_upper_bound; lia).
      apply (H _ _ _ Ht). rewrite <- Ht'. f_equal.
      rewrite Nat.add_mod_idemp_r by lia. change (S ((k + i) mod length ts)) with (1 + (k + i) mod length ts).
      rewrite Nat.add_mod_idemp_r by lia. f_equal. lia. }
    split; [exact C|]. apply closed_accepted; [|exact C]. intros E. apply (f_equal (@length _)) in E. rewrite rotate_length in E. cbn in E. lia.
  Qed.
End Ring.
