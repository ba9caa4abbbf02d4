(** * MpoFermionFacts: the matrix product operator of free fermions *)
From Verif Require Import Prelude Algebra Tensor TensorFacts Res Mpo MpoSpec MpoFacts MpoMain MpoFermion MpoFermionSpec.
Set Implicit Arguments.
Unset Strict Implicit.

Section Facts.
  Context {R : csr}.
  Add Ring Rring : (rsr R).
  Notation tensor := (tensor R).
  Notation op := (@op R).
  Variable mone : R.
  Hypothesis mone2 : mone *! mone = r1.
  Notation lower := (lower mone). Notation raise_ := (raise_ mone). Notation hop := (hop mone). Notation parity := (parity mone).

  (** ** assignments of blocks *)
  Definition blocks := @blocks R.
  Lemma assigned_app (l1 l2 : list (list nat * R)) ix :
    assigned (l1 ++ l2) ix = if existsb (fun p => if list_eq_dec Nat.eq_dec (fst p) ix then true else false) l2
                             then assigned l2 ix else assigned l1 ix.
  Proof.
    induction l1 as [|[jx v] r IH]; cbn [app assigned].
    - destruct (existsb _ l2) eqn:E; [reflexivity|]. clear -E. induction l2 as [|[jx v] r IH]; [reflexivity|].
      cbn [existsb fst] in E. apply Bool.orb_false_elim in E as [E1 E2]. cbn [assigned]. rewrite E2.
      destruct (list_eq_dec _ jx ix); [discriminate|reflexivity].
    - rewrite existsb_app, IH. destruct (existsb _ l2); [rewrite Bool.orb_true_r; reflexivity|]. rewrite Bool.orb_false_r. reflexivity.
  Qed.
  Definition last_block (l : list (nat * nat * op)) (a b : nat) : op :=
    fold_left (fun acc p => if (fst (fst p) =? a) && (snd (fst p) =? b) then snd p else acc) l (zero_op (R := R)).
  Lemma blk_in a b a' b' (m : op) x y : x < 2 -> y < 2 ->
    existsb (fun p => if list_eq_dec Nat.eq_dec (fst p) [a'; b'; x; y] then true else false) (blk a b m) = (a =? a') && (b =? b').
  Proof.
    intros Hx Hy. assert (G : forall i j, (if list_eq_dec Nat.eq_dec [a; b; i; j] [a'; b'; x; y] then true else false) =
      (a =? a') && (b =? b') && (i =? x) && (j =? y)).
    { intros i j. destruct (list_eq_dec _ _ _) as [E|E].
      - injection E as -> -> -> ->. rewrite !Nat.eqb_refl. reflexivity.
      - symmetry. apply Bool.not_true_is_false. intros H. apply E. rewrite !Bool.andb_true_iff, !Nat.eqb_eq in H.
        destruct H as [[[-> ->] ->] ->]. reflexivity. }
    unfold blk. cbn [existsb fst]. rewrite !G.
    destruct (a =? a'), (b =? b'); [|reflexivity..].
    destruct x as [|[|]]; [..|lia]; destruct y as [|[|]]; try lia; reflexivity.
  Qed.
  Lemma blk_val a b (m : op) x y : x < 2 -> y < 2 -> assigned (blk a b m) [a; b; x; y] = m x y.
  Proof.
    intros Hx Hy. unfold blk. cbn [assigned existsb fst].
    destruct x as [|[|]]; [..|lia]; destruct y as [|[|]]; try lia;
    repeat match goal with |- context [list_eq_dec Nat.eq_dec ?p ?q] =>
      destruct (list_eq_dec Nat.eq_dec p q); try congruence end; reflexivity.
  Qed.
  Lemma assigned_blocks l a b x y : x < 2 -> y < 2 -> assigned (blocks l) [a; b; x; y] = last_block l a b x y.
  Proof.
    intros Hx Hy. induction l as [|[[a' b'] m] r IH] using rev_ind; [reflexivity|].
    unfold blocks, MpoFermion.blocks in *. rewrite flat_map_app. cbn [flat_map fst snd]. rewrite app_nil_r, assigned_app.
    rewrite blk_in by assumption. unfold last_block. rewrite fold_left_app. cbn [fold_left fst snd].
    destruct ((a' =? a) && (b' =? b)) eqn:E; [|apply IH].
    apply Bool.andb_true_iff in E as [E1 E2]. apply Nat.eqb_eq in E1, E2. subst. apply blk_val; assumption.
  Qed.
  Lemma last_block_app l1 l2 a b :
    last_block (l1 ++ l2) a b =
    if existsb (fun p => (fst (fst p) =? a) && (snd (fst p) =? b)) l2 then last_block l2 a b else last_block l1 a b.
  Proof.
    induction l2 as [|p r IH] using rev_ind; [rewrite app_nil_r; reflexivity|].
    rewrite app_assoc, existsb_app. unfold last_block in *. rewrite !(fold_left_app _ _ [p]). cbn [fold_left existsb].
    rewrite Bool.orb_false_r. destruct ((fst (fst p) =? a) && (snd (fst p) =? b)); [rewrite Bool.orb_true_r; reflexivity|].
    rewrite Bool.orb_false_r. exact IH.
  Qed.
  Lemma last_block_in l a b : existsb (fun p => (fst (fst p) =? a) && (snd (fst p) =? b)) l = false -> last_block l a b = zero_op (R := R).
  Proof.
    induction l as [|p r IH] using rev_ind; [reflexivity|]. rewrite existsb_app. cbn [existsb]. intros E.
    apply Bool.orb_false_elim in E as [E1 E2]. rewrite Bool.orb_false_r in E2. unfold last_block. rewrite fold_left_app. cbn [fold_left].
    rewrite E2. apply IH, E1.
  Qed.
  (** the loops over the strings *)
  Definition strings (k c : nat) : list (nat * nat * op) := map (fun n1 => (n1, n1 - 1, np_sigma_z mone)) (seq k c).
  Lemma strings_in k c a b : existsb (fun p => (fst (fst p) =? a) && (snd (fst p) =? b)) (strings k c) = (k <=? a) && (a <? k + c) && (b =? a - 1).
  Proof.
    apply Bool.eq_iff_eq_true. rewrite existsb_exists. unfold strings. split.
    - intros (p & I & E). apply in_map_iff in I as (n & <- & I). apply in_seq in I. cbn [fst snd] in E.
      rewrite !Bool.andb_true_iff, !Nat.eqb_eq in E. rewrite !Bool.andb_true_iff, Nat.leb_le, Nat.ltb_lt, Nat.eqb_eq. lia.
    - rewrite !Bool.andb_true_iff, Nat.leb_le, Nat.ltb_lt, Nat.eqb_eq. intros [[H1 H2] ->].
      exists (a, a - 1, np_sigma_z mone). split; [|cbn [fst snd]; rewrite !Nat.eqb_refl; reflexivity].
      apply in_map_iff. exists a. split; [reflexivity|]. apply in_seq. lia.
  Qed.
  Lemma strings_val k c a b : (k <=? a) && (a <? k + c) && (b =? a - 1) = true -> last_block (strings k c) a b = np_sigma_z mone.
  Proof.
    rewrite <- strings_in. unfold strings. generalize (seq k c). intros l. induction l as [|n r IH] using rev_ind; [discriminate|].
    rewrite map_app, existsb_app. unfold last_block. rewrite fold_left_app. cbn [map existsb fold_left fst snd].
    destruct ((n =? a) && (n - 1 =? b)); [reflexivity|]. cbn [orb]. rewrite Bool.orb_false_r. exact IH.
  Qed.

  (** ** the rows of the tensors *)
  Definition gate (b : bool) (X : op) : op := if b then X else zero_op (R := R).
  Definition plus_op (X Y : op) : op := fun i j => X i j +! Y i j.
  Definition start (t1 t2 v : R) (N1 r : nat) : op := fun i j =>
    gate (r =? 0) (mscale v (np_number (R := R))) i j +!
    (gate (r =? 1) (mscale t1 (np_cdag (R := R))) i j +! gate (r =? N1) (mscale t2 (np_cdag (R := R))) i j) +!
    (gate (r =? N1 + 1) (mscale t1 (np_c (R := R))) i j +! gate (r =? 2 * N1) (mscale t2 (np_c (R := R))) i j) +!
    gate (r =? 2 * N1 + 1) (np_eye2 (R := R)) i j.
  Definition start_list (a : nat) (t1 t2 v : R) (N1 : nat) : list (nat * nat * op) :=
    [(a, 0, mscale v (np_number (R := R))); (a, 1, mscale t1 (np_cdag (R := R))); (a, N1, mscale t2 (np_cdag (R := R)));
     (a, N1 + 1, mscale t1 (np_c (R := R))); (a, 2 * N1, mscale t2 (np_c (R := R))); (a, 2 * N1 + 1, np_eye2 (R := R))].
  Ltac eqb_cases := repeat match goal with
    | |- context [?a =? ?b] => let E := fresh "E" in destruct (a =? b) eqn:E; [apply Nat.eqb_eq in E|apply Nat.eqb_neq in E]; try lia
    end.
  (** with one row the vertical amplitude must not count; the later assignment overrides the earlier *)
  Lemma start_row a t1 t2 v N1 r x y : 1 <= N1 -> (N1 = 1 -> r = 1 \/ r = 2 -> t1 = r0) ->
    last_block (start_list a t1 t2 v N1) a r x y = start t1 t2 v N1 r x y.
  Proof.
    intros H1 Ht. unfold last_block, start_list. cbn [fold_left fst snd]. rewrite Nat.eqb_refl. cbn [andb]. unfold start, gate.
    rewrite !(Nat.eqb_sym _ r). eqb_cases; unfold mscale, zero_op; try ring; rewrite Ht by lia; ring.
  Qed.
  Lemma start_row_N1 a t1 t2 v N1 r x y : N1 = 1 ->
    last_block (start_list a t1 t2 v N1) a r x y = start r0 t2 v N1 r x y.
  Proof.
    intros ->. unfold last_block, start_list. cbn [fold_left fst snd]. rewrite Nat.eqb_refl. cbn [andb]. unfold start, gate.
    rewrite !(Nat.eqb_sym _ r). eqb_cases; unfold mscale, zero_op; ring.
  Qed.
  Lemma start_list_in a t1 t2 v N1 l r : l <> a -> existsb (fun p => (fst (fst p) =? l) && (snd (fst p) =? r)) (start_list a t1 t2 v N1) = false.
  Proof.
    intros H. unfold start_list. cbn [existsb fst snd]. apply not_eq_sym, Nat.eqb_neq in H. rewrite H. reflexivity.
  Qed.

  (** the rows of the other channels *)
  Definition row (N1 l r : nat) : op :=
    if l =? 0 then gate (r =? 0) (np_eye2 (R := R))
    else if l =? 1 then gate (r =? 0) (np_c (R := R))
    else if l =? N1 + 1 then gate (r =? 0) (np_cdag (R := R))
    else gate (r =? l - 1) (np_sigma_z mone).
  Definition tau1 (t1 : R) (N1 n : nat) : R := if (n + 1) mod N1 =? 0 then r0 else t1.
  Definition tau2 (t2 : R) (N1 N2 n : nat) : R := if n <? N1 * (N2 - 1) then t2 else r0.
  Lemma bulk_row t1 t2 v N1 N2 n l r x y : 1 <= N1 -> l < 2 * N1 + 2 -> x < 2 -> y < 2 ->
    elt (ff_bulk mone t1 t2 v N1 N2 n) [l; r; x; y] =
    if l =? 2 * N1 + 1 then start (tau1 t1 N1 n) (tau2 t2 N1 N2 n) v N1 r x y else row N1 l r x y.
  Proof.
    intros H1 Hl Hx Hy. unfold ff_bulk. cbv zeta. unfold arr. cbn [elt].
    change (MpoFermion.blocks (R := R)) with blocks. rewrite assigned_blocks by assumption.
    fold (tau1 t1 N1 n). fold (tau2 t2 N1 N2 n). fold (strings 2 (N1 + 1 - 2)). fold (strings (N1 + 2) (2 * N1 + 1 - (N1 + 2))).
    fold (start_list (2 * N1 + 1) (tau1 t1 N1 n) (tau2 t2 N1 N2 n) v N1).
    set (st := start_list _ _ _ _ _). rewrite !app_assoc, last_block_app.
    destruct (l =? 2 * N1 + 1) eqn:E.
    - apply Nat.eqb_eq in E. subst l.
      assert (T : N1 = 1 -> r = 1 \/ r = 2 -> tau1 t1 N1 n = r0).
      { intros -> _. unfold tau1. rewrite Nat.mod_1_r. reflexivity. }
      destruct (existsb _ st) eqn:Ex; [apply start_row; assumption|].
      rewrite <- start_row with (a := 2 * N1 + 1) by assumption. fold st. rewrite (last_block_in Ex).
      assert (Z : forall l, existsb (fun p : nat * nat * op => (fst (fst p) =? 2 * N1 + 1) && (snd (fst p) =? r)) l = false ->
        last_block l (2 * N1 + 1) r x y = zero_op (R := R) x y) by (intros l0 Hl0; rewrite (last_block_in Hl0); reflexivity).
      apply Z. rewrite !existsb_app, !strings_in. cbn [existsb fst snd].
      replace (0 =? 2 * N1 + 1) with false by (symmetry; apply Nat.eqb_neq; lia).
      replace (1 =? 2 * N1 + 1) with false by (symmetry; apply Nat.eqb_neq; lia).
      replace (N1 + 1 =? 2 * N1 + 1) with false by (symmetry; apply Nat.eqb_neq; lia).
      replace (2 * N1 + 1 <? 2 + (N1 + 1 - 2)) with false by (symmetry; apply Nat.ltb_ge; lia).
      replace (2 * N1 + 1 <? N1 + 2 + (2 * N1 + 1 - (N1 + 2))) with false by (symmetry; apply Nat.ltb_ge; lia).
      rewrite !Bool.andb_false_r. reflexivity.
    - apply Nat.eqb_neq in E. unfold st. rewrite start_list_in by assumption.
      rewrite last_block_app, strings_in.
      destruct ((N1 + 2 <=? l) && (l <? N1 + 2 + (2 * N1 + 1 - (N1 + 2))) && (r =? l - 1)) eqn:E2.
      + rewrite strings_val by exact E2. rewrite !Bool.andb_true_iff, Nat.leb_le, Nat.ltb_lt, Nat.eqb_eq in E2.
        unfold row, gate. eqb_cases. reflexivity.
      + rewrite last_block_app. cbn [existsb fst snd]. rewrite Bool.orb_false_r.
        destruct ((N1 + 1 =? l) && (0 =? r)) eqn:E3.
        * unfold last_block. cbn [fold_left fst snd]. rewrite E3. rewrite Bool.andb_true_iff, !Nat.eqb_eq in E3.
          unfold row, gate. eqb_cases. reflexivity.
        * rewrite last_block_app, strings_in.
          destruct ((2 <=? l) && (l <? 2 + (N1 + 1 - 2)) && (r =? l - 1)) eqn:E4.
          -- rewrite strings_val by exact E4. rewrite !Bool.andb_true_iff, Nat.leb_le, Nat.ltb_lt, Nat.eqb_eq in E4.
             unfold row, gate. eqb_cases. reflexivity.
          -- rewrite !Bool.andb_false_iff, Nat.leb_gt, Nat.ltb_ge, Nat.eqb_neq in E4, E2.
             rewrite !Bool.andb_false_iff, !Nat.eqb_neq in E3.
             unfold last_block. cbn [fold_left fst snd]. unfold row, gate. rewrite (Nat.eqb_sym 0 l), (Nat.eqb_sym 1 l), (Nat.eqb_sym 0 r).
             eqb_cases; try reflexivity.
  Qed.
  Lemma last_row v N1 l x y : 1 <= N1 -> l < 2 * N1 + 2 -> x < 2 -> y < 2 ->
    elt (ff_last v N1) [l; 0; x; y] = if l =? 2 * N1 + 1 then mscale v (np_number (R := R)) x y else row N1 l 0 x y.
  Proof.
    intros H1 Hl Hx Hy. unfold ff_last, arr. cbn [elt]. change (MpoFermion.blocks (R := R)) with blocks. rewrite assigned_blocks by assumption.
    unfold last_block. cbn [fold_left fst snd]. unfold row, gate. rewrite Nat.eqb_refl, !Bool.andb_true_r, !(Nat.eqb_sym _ l).
    eqb_cases; try reflexivity.
  Qed.
  Lemma first_row t1 t2 v N1 r x y : 1 <= N1 -> x < 2 -> y < 2 ->
    elt (ff_first t1 t2 v N1) [0; r; x; y] = start (tau1 t1 N1 0) t2 v N1 r x y.
  Proof.
    intros H1 Hx Hy. unfold ff_first, arr. cbn [elt]. change (MpoFermion.blocks (R := R)) with blocks. rewrite assigned_blocks by assumption.
    fold (start_list 0 t1 t2 v N1). destruct (Nat.eq_dec N1 1) as [E|E].
    - rewrite start_row_N1 by exact E. unfold tau1. subst N1. reflexivity.
    - rewrite start_row by lia. unfold tau1. rewrite Nat.mod_small by lia. reflexivity.
  Qed.

  (** ** fermions one mode at a time *)
  Definition low (j : nat) (s s' : list nat) : R := amp s (lower j (Some (r1, s'))).
  Definition rai (j : nat) (s s' : list nat) : R := amp s (raise_ j (Some (r1, s'))).
  Definition idm (s s' : list nat) : R := amp s (Some (r1, s')).
  Definition sgn (y : nat) : R := if y =? 1 then mone else r1.
  Definition kcons (y : nat) (c : R) (k : ket) : ket := match k with Some (a, s) => Some (c *! a, y :: s) | None => None end.
  Lemma parity_cons y l : parity (y :: l) = sgn y *! parity l.
  Proof. unfold MpoFermionSpec.parity. rewrite lprod_cons. reflexivity. Qed.
  Lemma lower_S j y a s : lower (S j) (Some (a, y :: s)) = kcons y (sgn y) (lower j (Some (a, s))).
  Proof.
    cbn [MpoFermionSpec.lower nth]. destruct (nth j s 0 =? 1); [|reflexivity]. cbn [kcons firstn]. rewrite parity_cons.
    f_equal. f_equal. ring.
  Qed.
  Lemma raise_S j y a s : raise_ (S j) (Some (a, y :: s)) = kcons y (sgn y) (raise_ j (Some (a, s))).
  Proof.
    cbn [MpoFermionSpec.raise_ nth]. destruct (nth j s 1 =? 0); [|reflexivity]. cbn [kcons firstn]. rewrite parity_cons.
    f_equal. f_equal. ring.
  Qed.
  Lemma amp_kcons x y c s k : amp (x :: s) (kcons y c k) = (if y =? x then c else r0) *! amp s k.
  Proof.
    destruct k as [[a s2]|]; cbn [kcons amp]; [|ring].
    destruct (y =? x) eqn:E; [apply Nat.eqb_eq in E; subst|apply Nat.eqb_neq in E].
    - destruct (list_eq_dec _ (x :: s2) (x :: s)) as [F|F]; destruct (list_eq_dec _ s2 s) as [G|G]; try congruence; ring.
    - destruct (list_eq_dec _ (y :: s2) (x :: s)) as [F|F]; [congruence|]. ring.
  Qed.
  Lemma amp_lower_scale j a s s' : amp s (lower j (Some (a, s'))) = a *! low j s s'.
  Proof.
    unfold low. cbn [MpoFermionSpec.lower]. destruct (nth j s' 0 =? 1); cbn [amp]; [|ring].
    destruct (list_eq_dec _ _ s); ring.
  Qed.
  Lemma amp_raise_scale j a s s' : amp s (raise_ j (Some (a, s'))) = a *! rai j s s'.
  Proof.
    unfold rai. cbn [MpoFermionSpec.raise_]. destruct (nth j s' 1 =? 0); cbn [amp]; [|ring].
    destruct (list_eq_dec _ _ s); ring.
  Qed.
  Ltac bit x := destruct x as [|[|x]]; [..|exfalso; lia].
    Lemma idm_cons x y s s' : idm (x :: s) (y :: s') = np_eye2 (R := R) x y *! idm s s'.
    Proof.
      unfold idm. change (Some (r1 (c := R), y :: s')) with (Some (r1 (c := R), y :: s')).
      transitivity (amp (x :: s) (kcons y r1 (Some (r1 (c := R), s')))).
      - cbn [kcons amp]. destruct (list_eq_dec _ _ _); [ring|reflexivity].
      - rewrite amp_kcons. unfold np_eye2. rewrite (Nat.eqb_sym y x). reflexivity.
    Qed.
    Lemma low_0 x y s s' : x < 2 -> y < 2 -> low 0 (x :: s) (y :: s') = np_c (R := R) x y *! idm s s'.
    Proof.
      intros Hx Hy.
      unfold low, idm. cbn [MpoFermionSpec.lower nth firstn]. unfold put. cbn [firstn skipn app].
      assert (P : parity [] = r1) by reflexivity. rewrite P.
      bit x; bit y; cbn [Nat.eqb np_c amp]; try ring;
        destruct (list_eq_dec _ _ _); destruct (list_eq_dec _ _ _); try congruence; ring.
    Qed.
    Lemma rai_0 x y s s' : x < 2 -> y < 2 -> rai 0 (x :: s) (y :: s') = np_cdag (R := R) x y *! idm s s'.
    Proof.
      intros Hx Hy.
      unfold rai, idm. cbn [MpoFermionSpec.raise_ nth firstn]. unfold put. cbn [firstn skipn app].
      assert (P : parity [] = r1) by reflexivity. rewrite P.
      unfold np_cdag. bit x; bit y; cbn [Nat.eqb np_c amp]; try ring;
        destruct (list_eq_dec _ _ _); destruct (list_eq_dec _ _ _); try congruence; ring.
    Qed.
    Lemma low_S j x y s s' : x < 2 -> y < 2 -> low (S j) (x :: s) (y :: s') = np_sigma_z mone x y *! low j s s'.
    Proof.
      intros Hx Hy.
      unfold low. rewrite lower_S, amp_kcons. f_equal. bit x; bit y; reflexivity.
    Qed.
    Lemma rai_S j x y s s' : x < 2 -> y < 2 -> rai (S j) (x :: s) (y :: s') = np_sigma_z mone x y *! rai j s s'.
    Proof.
      intros Hx Hy.
      unfold rai. rewrite raise_S, amp_kcons. f_equal. bit x; bit y; reflexivity.
    Qed.
    Lemma sgn2 y : sgn y *! sgn y = r1.
    Proof. unfold sgn. destruct (y =? 1); [exact mone2|ring]. Qed.
    Lemma hop_SS i j x y s s' : x < 2 -> y < 2 -> hop (S i) (S j) (x :: s) (y :: s') = np_eye2 (R := R) x y *! hop i j s s'.
    Proof.
      intros Hx Hy.
      unfold MpoFermionSpec.hop. rewrite lower_S. destruct (lower j (Some (r1, s'))) as [[a s1]|]; cbn [kcons].
      - rewrite raise_S, amp_kcons. rewrite !amp_raise_scale. unfold np_eye2. rewrite (Nat.eqb_sym x y).
        destruct (y =? x); [|ring]. transitivity ((sgn y *! sgn y) *! (a *! rai i s s1)); [ring|]. rewrite sgn2. reflexivity.
      - cbn [MpoFermionSpec.raise_ amp]. ring.
    Qed.
    Lemma hop_0S j x y s s' : x < 2 -> y < 2 -> hop 0 (S j) (x :: s) (y :: s') = np_cdag (R := R) x y *! low j s s'.
    Proof.
      intros Hx Hy.
      unfold MpoFermionSpec.hop. rewrite lower_S. unfold low. destruct (lower j (Some (r1, s'))) as [[a s1]|]; cbn [kcons].
      - rewrite amp_raise_scale. fold (rai 0 (x :: s) (y :: s1)).
        assert (E : rai 0 (x :: s) (y :: s1) = np_cdag (R := R) x y *! amp s (Some (r1, s1))).
        { clear - Hx Hy. unfold rai. cbn [MpoFermionSpec.raise_ nth firstn]. unfold put. cbn [firstn skipn app].
          assert (P : parity [] = r1) by reflexivity. rewrite P.
          unfold np_cdag. bit x; bit y; cbn [Nat.eqb np_c amp]; try ring;
            destruct (list_eq_dec _ _ _); destruct (list_eq_dec _ _ _); try congruence; ring. }
        rewrite E. cbn [amp]. unfold np_cdag. bit x; bit y; cbn [np_c sgn Nat.eqb]; unfold sgn; cbn [Nat.eqb]; destruct (list_eq_dec _ _ _); ring.
      - cbn [MpoFermionSpec.raise_ amp]. ring.
    Qed.
    Lemma hop_S0 j x y s s' : x < 2 -> y < 2 -> hop (S j) 0 (x :: s) (y :: s') = np_c (R := R) x y *! rai j s s'.
    Proof.
      intros Hx Hy.
      unfold MpoFermionSpec.hop. cbn [MpoFermionSpec.lower nth firstn]. unfold put. cbn [firstn skipn app].
      assert (P : parity [] = r1) by reflexivity. rewrite P.
      destruct (y =? 1) eqn:E.
      - rewrite raise_S, amp_kcons, amp_raise_scale. bit x; bit y; try discriminate E; cbn [np_c Nat.eqb]; unfold sgn; cbn [Nat.eqb]; ring.
      - cbn [MpoFermionSpec.raise_ amp]. bit x; bit y; try discriminate E; cbn [np_c]; ring.
    Qed.
    Lemma hop_00 x y s s' : x < 2 -> y < 2 -> hop 0 0 (x :: s) (y :: s') = np_number (R := R) x y *! idm s s'.
    Proof.
      intros Hx Hy.
      unfold MpoFermionSpec.hop, idm. cbn [MpoFermionSpec.lower nth firstn]. unfold put. cbn [firstn skipn app].
      assert (P : parity [] = r1) by reflexivity. rewrite P.
      bit x; bit y; cbn [Nat.eqb MpoFermionSpec.raise_ nth firstn]; unfold put; cbn [firstn skipn app np_number amp Nat.eqb]; rewrite ?P; try ring;
        destruct (list_eq_dec _ _ _); destruct (list_eq_dec _ _ _); try congruence; ring.
    Qed.
  (** modes beyond the end *)
  Lemma low_nil j : low j [] [] = r0.
  Proof. unfold low. destruct j; reflexivity. Qed.
  Lemma rai_nil j : rai j [] [] = r0.
  Proof. unfold rai. destruct j; reflexivity. Qed.
  Lemma hop_out i j s s' : length s' <= i \/ length s' <= j -> hop i j s s' = r0.
  Proof.
    intros H. unfold MpoFermionSpec.hop. cbn [MpoFermionSpec.lower].
    destruct (nth j s' 0 =? 1) eqn:E; [|reflexivity].
    destruct (Nat.lt_ge_cases j (length s')) as [L|L]; [|rewrite nth_overflow in E by exact L; discriminate].
    cbn [MpoFermionSpec.raise_]. rewrite nth_overflow; [reflexivity|].
    unfold put. rewrite app_length, firstn_length. cbn [length]. rewrite skipn_length. lia.
  Qed.

  (** ** the operator of the sites from n on *)
  Section Main.
    Variables (t1 t2 v : R) (N1 N2 : nat).
    Hypothesis N1pos : 1 <= N1.
    Definition term (a1 a2 : R) (k : nat) (s s' : list nat) : R :=
      v *! hop k k s s' +! a1 *! (hop k (k + 1) s s' +! hop (k + 1) k s s') +! a2 *! (hop k (k + N1) s s' +! hop (k + N1) k s s').
    Definition Hfrom (n L : nat) (s s' : list nat) : R :=
      nsum L (fun k => term (tau1 t1 N1 (n + k)) (tau2 t2 N1 N2 (n + k)) k s s').
    Lemma term_0 a1 a2 x y s s' : x < 2 -> y < 2 ->
      term a1 a2 0 (x :: s) (y :: s') =
      v *! np_number (R := R) x y *! idm s s' +!
      a1 *! (np_cdag (R := R) x y *! low 0 s s' +! np_c (R := R) x y *! rai 0 s s') +!
      a2 *! (np_cdag (R := R) x y *! low (N1 - 1) s s' +! np_c (R := R) x y *! rai (N1 - 1) s s').
    Proof.
      intros Hx Hy. unfold term. replace (0 + 1) with 1 by lia. replace (0 + N1) with (S (N1 - 1)) by lia.
      rewrite hop_00, !hop_0S, !hop_S0 by assumption. ring.
    Qed.
    Lemma term_S a1 a2 k x y s s' : x < 2 -> y < 2 ->
      term a1 a2 (S k) (x :: s) (y :: s') = np_eye2 (R := R) x y *! term a1 a2 k s s'.
    Proof.
      intros Hx Hy. unfold term. cbn [Nat.add]. rewrite !hop_SS by assumption. ring.
    Qed.
    Lemma Hfrom_S n L x y s s' : x < 2 -> y < 2 ->
      Hfrom n (S L) (x :: s) (y :: s') =
      term (tau1 t1 N1 n) (tau2 t2 N1 N2 n) 0 (x :: s) (y :: s') +! np_eye2 (R := R) x y *! Hfrom (S n) L s s'.
    Proof.
      intros Hx Hy. unfold Hfrom. rewrite nsum_head, Nat.add_0_r. f_equal. rewrite <- nsum_mul_l. apply nsum_ext. intros k _.
      rewrite term_S by assumption. replace (n + S k) with (S n + k) by lia. reflexivity.
    Qed.

    Lemma gate_sum D a (X : op) x y (f : nat -> R) : a < D -> nsum D (fun r => gate (r =? a) X x y *! f r) = X x y *! f a.
    Proof.
      intros H. rewrite (@nsum_single R D _ a H).
      - unfold gate. rewrite Nat.eqb_refl. reflexivity.
      - intros i _ Hi. unfold gate. apply Nat.eqb_neq in Hi. rewrite Hi. unfold zero_op. ring.
    Qed.
    Lemma row_sum_ff l x y (f : nat -> R) : l < 2 * N1 + 1 ->
      nsum (2 * N1 + 2) (fun r => row N1 l r x y *! f r) =
      if l =? 0 then np_eye2 (R := R) x y *! f 0 else if l =? 1 then np_c (R := R) x y *! f 0
      else if l =? N1 + 1 then np_cdag (R := R) x y *! f 0 else np_sigma_z mone x y *! f (l - 1).
    Proof.
      intros Hl. unfold row. destruct (l =? 0); [apply gate_sum; lia|]. destruct (l =? 1); [apply gate_sum; lia|].
      destruct (l =? N1 + 1); [apply gate_sum; lia|]. apply gate_sum; lia.
    Qed.
    Lemma start_sum a1 a2 x y (f : nat -> R) :
      nsum (2 * N1 + 2) (fun r => start a1 a2 v N1 r x y *! f r) =
      v *! np_number (R := R) x y *! f 0 +!
      a1 *! (np_cdag (R := R) x y *! f 1 +! np_c (R := R) x y *! f (N1 + 1)) +!
      a2 *! (np_cdag (R := R) x y *! f N1 +! np_c (R := R) x y *! f (2 * N1)) +!
      np_eye2 (R := R) x y *! f (2 * N1 + 1).
    Proof.
      unfold start.
      rewrite (@nsum_ext R _ _ (fun r =>
        gate (r =? 0) (mscale v (np_number (R := R))) x y *! f r +!
        gate (r =? 1) (mscale a1 (np_cdag (R := R))) x y *! f r +! gate (r =? N1) (mscale a2 (np_cdag (R := R))) x y *! f r +!
        gate (r =? N1 + 1) (mscale a1 (np_c (R := R))) x y *! f r +! gate (r =? 2 * N1) (mscale a2 (np_c (R := R))) x y *! f r +!
        gate (r =? 2 * N1 + 1) (np_eye2 (R := R)) x y *! f r)) by (intros; ring).
      rewrite !nsum_add, !gate_sum by lia. unfold mscale. ring.
    Qed.

    Lemma chain_ff c : forall n s s', spins (S c) s -> spins (S c) s' ->
      let ts := map (ff_bulk mone t1 t2 v N1 N2) (seq n c) ++ [ff_last v N1] in
      chain ts 0 s s' = idm s s' /\
      (forall k, k < N1 -> chain ts (1 + k) s s' = low k s s') /\
      (forall k, k < N1 -> chain ts (N1 + 1 + k) s s' = rai k s s') /\
      chain ts (2 * N1 + 1) s s' = Hfrom n (S c) s s'.
    Proof.
      induction c as [|c IH]; intros n s s' [L Hs] [L' Hs'] ts.
      - destruct s as [|x [|]]; try discriminate L. destruct s' as [|y [|]]; try discriminate L'.
        inversion Hs as [|? ? Hx _]; subst. inversion Hs' as [|? ? Hy _]; subst.
        assert (G : forall l, l < 2 * N1 + 2 -> chain ts l [x] [y] =
          if l =? 2 * N1 + 1 then mscale v (np_number (R := R)) x y else row N1 l 0 x y).
        { intros l Hl. unfold ts. cbn [map seq app chain nth]. rewrite <- last_row by assumption. change (nth 1 (shape (ff_last v N1)) 0) with 1.
          unfold nsum. simpl. ring. }
        assert (I : idm [] [] = r1) by reflexivity.
        split; [|split; [|split]].
        + rewrite G by lia. replace (0 =? 2 * N1 + 1) with false by (symmetry; apply Nat.eqb_neq; lia).
          rewrite idm_cons, I. unfold row, gate. cbn [Nat.eqb]. ring.
        + intros k Hk. rewrite G by lia. replace (1 + k =? 2 * N1 + 1) with false by (symmetry; apply Nat.eqb_neq; lia).
          destruct k as [|k].
          * rewrite low_0, I by assumption. unfold row, gate. cbn [Nat.eqb Nat.add]. ring.
          * rewrite low_S, low_nil by assumption. unfold row, gate.
            replace (1 + S k =? 0) with false by reflexivity. replace (1 + S k =? 1) with false by reflexivity.
            replace (1 + S k =? N1 + 1) with false by (symmetry; apply Nat.eqb_neq; lia).
            replace (0 =? 1 + S k - 1) with false by (symmetry; apply Nat.eqb_neq; lia). unfold zero_op. ring.
        + intros k Hk. rewrite G by lia. replace (N1 + 1 + k =? 2 * N1 + 1) with false by (symmetry; apply Nat.eqb_neq; lia).
          unfold row. replace (N1 + 1 + k =? 0) with false by (symmetry; apply Nat.eqb_neq; lia).
          replace (N1 + 1 + k =? 1) with false by (symmetry; apply Nat.eqb_neq; lia).
          destruct k as [|k].
          * rewrite rai_0, I by assumption. rewrite Nat.add_0_r, Nat.eqb_refl. unfold gate. cbn [Nat.eqb]. ring.
          * rewrite rai_S, rai_nil by assumption. replace (N1 + 1 + S k =? N1 + 1) with false by (symmetry; apply Nat.eqb_neq; lia).
            unfold gate. replace (0 =? N1 + 1 + S k - 1) with false by (symmetry; apply Nat.eqb_neq; lia). unfold zero_op. ring.
        + rewrite G by lia. rewrite Nat.eqb_refl. rewrite Hfrom_S, term_0, !low_nil, !rai_nil, I by assumption.
          unfold Hfrom, nsum, mscale. cbn [seq lsum fold_right]. ring.
      - destruct s as [|x s]; [discriminate L|]. destruct s' as [|y s']; [discriminate L'|].
        inversion Hs as [|? ? Hx Hss]; subst. inversion Hs' as [|? ? Hy Hss']; subst.
        injection L as L. injection L' as L'.
        destruct (IH (S n) s s' (conj L Hss) (conj L' Hss')) as (C0 & C1 & C2 & C3).
        set (tr := map (ff_bulk mone t1 t2 v N1 N2) (seq (S n) c) ++ [ff_last v N1]) in *.
        assert (G : forall l, l < 2 * N1 + 2 -> chain ts l (x :: s) (y :: s') = nsum (2 * N1 + 2) (fun b =>
          (if l =? 2 * N1 + 1 then start (tau1 t1 N1 n) (tau2 t2 N1 N2 n) v N1 b x y else row N1 l b x y) *! chain tr b s s')).
        { intros l Hl. unfold ts. cbn [map seq app chain nth tl]. fold tr.
          change (nth 1 (shape (ff_bulk mone t1 t2 v N1 N2 n)) 0) with (2 * N1 + 2).
          apply nsum_ext. intros b _. rewrite bulk_row by assumption. reflexivity. }
        split; [|split; [|split]].
        + rewrite G by lia. replace (0 =? 2 * N1 + 1) with false by (symmetry; apply Nat.eqb_neq; lia).
          rewrite row_sum_ff by lia. cbn [Nat.eqb]. rewrite C0, idm_cons. reflexivity.
        + intros k Hk. rewrite G by lia. replace (1 + k =? 2 * N1 + 1) with false by (symmetry; apply Nat.eqb_neq; lia).
          rewrite row_sum_ff by lia. destruct k as [|k].
          * cbn [Nat.eqb Nat.add]. rewrite C0, low_0 by assumption. reflexivity.
          * replace (1 + S k =? 0) with false by reflexivity. replace (1 + S k =? 1) with false by reflexivity.
            replace (1 + S k =? N1 + 1) with false by (symmetry; apply Nat.eqb_neq; lia).
            replace (1 + S k - 1) with (1 + k) by lia. rewrite C1 by lia. rewrite low_S by assumption. reflexivity.
        + intros k Hk. rewrite G by lia. replace (N1 + 1 + k =? 2 * N1 + 1) with false by (symmetry; apply Nat.eqb_neq; lia).
          rewrite row_sum_ff by lia. replace (N1 + 1 + k =? 0) with false by (symmetry; apply Nat.eqb_neq; lia).
          replace (N1 + 1 + k =? 1) with false by (symmetry; apply Nat.eqb_neq; lia).
          destruct k as [|k].
          * rewrite Nat.add_0_r, Nat.eqb_refl, C0, rai_0 by assumption. reflexivity.
          * replace (N1 + 1 + S k =? N1 + 1) with false by (symmetry; apply Nat.eqb_neq; lia).
            replace (N1 + 1 + S k - 1) with (N1 + 1 + k) by lia. rewrite C2 by lia. rewrite rai_S by assumption. reflexivity.
        + rewrite G by lia. rewrite Nat.eqb_refl, start_sum. rewrite C0, C3.
          assert (X1 : chain tr 1 s s' = low 0 s s') by (apply (C1 0); lia).
          assert (X2 : chain tr N1 s s' = low (N1 - 1) s s') by (rewrite <- C1 by lia; f_equal; lia).
          assert (X3 : chain tr (N1 + 1) s s' = rai 0 s s') by (rewrite <- C2 by lia; f_equal; lia).
          assert (X4 : chain tr (2 * N1) s s' = rai (N1 - 1) s s') by (rewrite <- C2 by lia; f_equal; lia).
          rewrite X1, X2, X3, X4, Hfrom_S, term_0 by assumption. ring.
    Qed.
    Lemma chain_first_ff c s s' : N1 * N2 = S (S c) -> spins (S (S c)) s -> spins (S (S c)) s' ->
      chain (ff_first t1 t2 v N1 :: map (ff_bulk mone t1 t2 v N1 N2) (seq 1 c) ++ [ff_last v N1]) 0 s s' = Hfrom 0 (S (S c)) s s'.
    Proof.
      intros EN [L Hs] [L' Hs'].
      destruct s as [|x s]; [discriminate L|]. destruct s' as [|y s']; [discriminate L'|].
      inversion Hs as [|? ? Hx Hss]; subst. inversion Hs' as [|? ? Hy Hss']; subst.
      injection L as L. injection L' as L'.
      destruct (@chain_ff c 1 s s' (conj L Hss) (conj L' Hss')) as (C0 & C1 & C2 & C3).
      set (tr := map (ff_bulk mone t1 t2 v N1 N2) (seq 1 c) ++ [ff_last v N1]) in *.
      cbn [chain nth tl]. change (nth 1 (shape (ff_first t1 t2 v N1)) 0) with (2 * N1 + 2).
      rewrite (@nsum_ext R _ _ (fun b => start (tau1 t1 N1 0) t2 v N1 b x y *! chain tr b s s'))
        by (intros b _; rewrite first_row by assumption; reflexivity).
      rewrite start_sum, C0, C3.
      assert (X1 : chain tr 1 s s' = low 0 s s') by (apply (C1 0); lia).
      assert (X2 : chain tr N1 s s' = low (N1 - 1) s s') by (rewrite <- C1 by lia; f_equal; lia).
      assert (X3 : chain tr (N1 + 1) s s' = rai 0 s s') by (rewrite <- C2 by lia; f_equal; lia).
      assert (X4 : chain tr (2 * N1) s s' = rai (N1 - 1) s s') by (rewrite <- C2 by lia; f_equal; lia).
      rewrite X1, X2, X3, X4, Hfrom_S by assumption.
      transitivity (term (tau1 t1 N1 0) t2 0 (x :: s) (y :: s') +! np_eye2 (R := R) x y *! Hfrom 1 (S c) s s').
      { rewrite term_0 by assumption. ring. }
      f_equal. unfold tau2. destruct (0 <? N1 * (N2 - 1)) eqn:E; [reflexivity|]. apply Nat.ltb_ge in E.
      assert (N2 = 1) by nia. assert (E1 : N1 = S (S c)) by nia. unfold term. cbn [Nat.add].
      rewrite (@hop_out 0 N1), (@hop_out N1 0) by (cbn [length]; rewrite ?L'; lia). ring.
    Qed.
    (** ** lattice sums *)
    Lemma nsum_block (f : nat -> R) : forall c, nsum (N1 * c) f = nsum c (fun y => nsum N1 (fun x => f (N1 * y + x))).
    Proof.
      induction c as [|c IH].
      - rewrite Nat.mul_0_r. reflexivity.
      - rewrite nsum_S, <- IH. replace (N1 * S c) with (N1 * c + N1) by lia. unfold nsum at 1. rewrite seq_app, lsum_app. f_equal.
        unfold nsum. cbn [Nat.add]. generalize (N1 * c). intros k. generalize N1 at 1 2. intros m. clear.
        revert k. induction m as [|m IH]; intros k; [reflexivity|]. rewrite !seq_S, !lsum_app, IH. reflexivity.
    Qed.
    Lemma Hfrom_H s s' : 1 <= N2 -> length s' = N1 * N2 -> Hfrom 0 (N1 * N2) s s' = H_ff mone t1 t2 v N1 N2 s s'.
    Proof.
      intros H2 L. unfold Hfrom, H_ff. cbv zeta. unfold site.
      rewrite (@nsum_ext R _ _ (fun k => v *! hop k k s s' +! tau1 t1 N1 k *! (hop k (k + 1) s s' +! hop (k + 1) k s s') +!
        tau2 t2 N1 N2 k *! (hop k (k + N1) s s' +! hop (k + N1) k s s'))) by (intros; reflexivity).
      rewrite !nsum_add. f_equal; [f_equal|].
      - rewrite nsum_mul_l, nsum_block. reflexivity.
      - rewrite nsum_block, <- nsum_mul_l. apply nsum_ext. intros y Hy.
        destruct N1 as [|m] eqn:EN; [lia|]. replace (S m - 1) with m by lia. rewrite nsum_S, <- nsum_mul_l.
        assert (Z : tau1 t1 (S m) (S m * y + m) = r0).
        { unfold tau1. replace (S m * y + m + 1) with (0 + (y + 1) * S m) by lia. rewrite Nat.mod_add by lia.
          rewrite Nat.mod_0_l by lia. reflexivity. }
        rewrite Z. rewrite (@nsum_ext R m _ (fun x => t1 *! (hop (S m * y + x) (S m * y + S x) s s' +! hop (S m * y + S x) (S m * y + x) s s'))).
        + ring.
        + intros x Hx. replace (S m * y + x + 1) with (S m * y + S x) by lia. f_equal. unfold tau1.
          replace (S m * y + x + 1) with (S x + y * S m) by lia. rewrite Nat.mod_add by lia. rewrite Nat.mod_small by lia. reflexivity.
      - destruct N2 as [|m] eqn:EN; [lia|]. replace (S m - 1) with m by lia. rewrite nsum_block, nsum_S.
        rewrite (@nsum_zero R N1).
        + rewrite <- nsum_mul_l. transitivity (nsum m (fun y => t2 *! nsum N1 (fun x => hop (N1 * y + x) (N1 * S y + x) s s' +! hop (N1 * S y + x) (N1 * y + x) s s')) +! r0); [|ring].
          f_equal. apply nsum_ext. intros y Hy. rewrite <- nsum_mul_l. apply nsum_ext. intros x Hx.
          replace (N1 * y + x + N1) with (N1 * S y + x) by lia. f_equal. unfold tau2. replace (S m - 1) with m by lia.
          replace (N1 * y + x <? N1 * m) with true by (symmetry; apply Nat.ltb_lt; nia). reflexivity.
        + intros x Hx. unfold tau2. replace (S m - 1) with m by lia.
          replace (N1 * m + x <? N1 * m) with false by (symmetry; apply Nat.ltb_ge; lia). ring.
    Qed.
    Theorem ff_ok : 2 <= N1 * N2 ->
      exists ts, finite_free_fermion_2d mone t1 t2 v N1 N2 = Ok ts /\ length ts = N1 * N2 /\
        forall s s', spins (N1 * N2) s -> spins (N1 * N2) s' -> mpo_entry ts s s' = H_ff mone t1 t2 v N1 N2 s s'.
    Proof.
      intros H2. eexists. split; [|split].
      - unfold finite_free_fermion_2d. cbn [finite_mpo]. rewrite last_snoc. reflexivity.
      - cbn [length]. rewrite app_length, map_length, seq_length. cbn [length]. lia.
      - intros s s' Hs Hs'. rewrite mpo_entry_chain.
        assert (Hs2 := Hs). destruct Hs2 as [L _]. assert (Hs2 := Hs'). destruct Hs2 as [L' _].
        assert (E : N1 * N2 = S (S (N1 * N2 - 1 - 1))) by lia. rewrite <- Hfrom_H by (try exact L'; nia).
        transitivity (Hfrom 0 (S (S (N1 * N2 - 1 - 1))) s s'); [|rewrite <- E; reflexivity].
        apply chain_first_ff; [exact E|rewrite <- E..]; assumption.
    Qed.
  End Main.
End Facts.
