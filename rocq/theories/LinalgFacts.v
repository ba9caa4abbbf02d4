(** * LinalgFacts: reshape, transpose, pivot and kron meet LinalgSpec *)
From Verif Require Import Prelude Algebra Tensor TensorFacts Res Backends BackendFacts Einsum Graph GraphQuery Linalg LinalgSpec.
From Coq Require Import ZArith String.
Set Implicit Arguments.
Unset Strict Implicit.

Lemma wrap32_small z : (- 2 ^ 31 <= z < 2 ^ 31)%Z -> wrap32 z = z.
Proof. intros H. unfold wrap32. rewrite Z.mod_small; lia. Qed.
Definition small (s : list nat) : Prop := Forall (fun d => (Z.of_nat d < 2 ^ 31)%Z) s.
Lemma wrap32_nats s : small s -> map wrap32 (map Z.of_nat s) = map Z.of_nat s.
Proof. induction 1 as [|d r Hd _ IH]; simpl; [reflexivity|]. rewrite IH, wrap32_small by lia. reflexivity. Qed.
Lemma to_of_nats s : map Z.to_nat (map Z.of_nat s) = s.
Proof. induction s; simpl; [reflexivity|]. rewrite Nat2Z.id. congruence. Qed.
Lemma unknown_nat any d : unknown any (Z.of_nat d) = false.
Proof.
  unfold unknown. replace (Z.of_nat d =? -1)%Z with false by (symmetry; apply Z.eqb_neq; lia).
  replace (Z.of_nat d <? 0)%Z with false by (symmetry; apply Z.ltb_ge; lia). destruct any; reflexivity.
Qed.
Lemma known_nats any s : filter (fun z => negb (unknown any z)) (map Z.of_nat s) = map Z.of_nat s.
Proof. induction s as [|d r IH]; simpl; [reflexivity|]. rewrite unknown_nat. simpl. congruence. Qed.
Lemma no_neg_nats s : existsb (fun z => (z <? 0)%Z) (map Z.of_nat s) = false.
Proof.
  induction s as [|d r IH]; simpl; [reflexivity|]. replace (Z.of_nat d <? 0)%Z with false by (symmetry; apply Z.ltb_ge; lia). exact IH.
Qed.
Lemma gather_seq_cut A (d : A) l : forall a n, a + n <= List.length l -> gather d l (seq a n) = firstn n (skipn a l).
Proof.
  intros a n; revert a; induction n as [|n IH]; intros a H; simpl; [reflexivity|].
  rewrite IH by lia. clear IH. revert a H; induction l as [|x l IHl]; intros [|a] H; simpl in *; try lia; try reflexivity.
  rewrite IHl by lia. reflexivity.
Qed.

Section Facts.
  Context {R : csr}.
  Notation tensor := (tensor R).

  Lemma reshape_meets (t : tensor) s : nprod s = nprod (shape t) -> is_reshape t s (reshape t s).
  Proof. intros H. split; [reflexivity | apply reshape_to_list; exact H]. Qed.
  Lemma np_reshape_nat any (t : tensor) s : small s ->
    np_reshape any t (map Z.of_nat s) = if nprod s =? nprod (shape t) then Ok (reshape t s) else Raise.
  Proof.
    intros S. unfold np_reshape. rewrite (wrap32_nats S). unfold reshape_raw.
    rewrite known_nats, no_neg_nats, Nat.sub_diag, to_of_nats. reflexivity.
  Qed.
  Lemma np_reshape_unknown any (t : tensor) s1 s2 : small s1 -> small s2 ->
    np_reshape any t (map Z.of_nat s1 ++ (-1)%Z :: map Z.of_nat s2) =
    (if (nprod (s1 ++ s2) =? 0) || negb (nprod (shape t) mod nprod (s1 ++ s2) =? 0) then Raise
     else Ok (reshape t (s1 ++ nprod (shape t) / nprod (s1 ++ s2) :: s2))).
  Proof.
    intros S1 S2. unfold np_reshape. rewrite map_app. simpl. rewrite (wrap32_nats S1), (wrap32_nats S2).
    change (wrap32 (-1)) with (-1)%Z. unfold reshape_raw. rewrite filter_app. simpl filter. rewrite !known_nats.
    rewrite existsb_app, !no_neg_nats. simpl orb. cbv iota.
    replace (_ - _) with 1 by (rewrite !app_length; simpl; lia).
    rewrite <- map_app, to_of_nats.
    destruct (_ || _); [reflexivity|]. do 2 f_equal. rewrite map_app. simpl. f_equal; [|f_equal];
      rewrite map_map; rewrite <- map_id; apply map_ext; intros d; rewrite unknown_nat, Nat2Z.id; reflexivity.
  Qed.
  Lemma np_reshape_infers any (t : tensor) s1 s2 u : small s1 -> small s2 ->
    np_reshape any t (map Z.of_nat s1 ++ (-1)%Z :: map Z.of_nat s2) = Ok u ->
    exists d, nprod (s1 ++ d :: s2) = nprod (shape t) /\ is_reshape t (s1 ++ d :: s2) u.
  Proof.
    intros S1 S2. rewrite np_reshape_unknown by assumption.
    destruct (nprod (s1 ++ s2) =? 0) eqn:Z; [discriminate|]. simpl.
    destruct (nprod (shape t) mod nprod (s1 ++ s2) =? 0) eqn:D; simpl; [|discriminate].
    apply Nat.eqb_neq in Z. apply Nat.eqb_eq in D. intros [= <-].
    assert (E : nprod (s1 ++ nprod (shape t) / nprod (s1 ++ s2) :: s2) = nprod (shape t)).
    { rewrite nprod_app. change (nprod (?d :: s2)) with (d * nprod s2). rewrite nprod_app in *.
      apply Nat.div_exact in D; [|exact Z]. lia. }
    exists (nprod (shape t) / nprod (s1 ++ s2)). split; [exact E | apply reshape_meets; exact E].
  Qed.

  Lemma transpose_meets (t : tensor) p : is_perm (rank t) p -> is_transpose t p (transpose t p).
  Proof.
    intros H. split; [reflexivity|]. intros ix V. simpl. f_equal. apply unperm_gather.
    rewrite (valid_length V). exact H.
  Qed.
  Lemma is_transpose_teq (t : tensor) p u v : is_perm (rank t) p -> is_transpose t p u -> is_transpose t p v -> teq u v.
  Proof.
    intros P [S1 E1] [S2 E2]. split; [congruence|]. intros ix V.
    assert (W : valid (unperm 0 p ix) (shape t)) by (apply valid_unperm; [exact P | rewrite S1 in V; exact V]).
    assert (L : List.length ix = rank t).
    { rewrite (valid_length V), S1, map_length. apply is_perm_length, P. }
    specialize (E1 _ W). specialize (E2 _ W).
    assert (G : map (fun i => nth i (unperm 0 p ix) 0) p = ix) by (apply (gather_unperm (A := nat)); rewrite L; exact P).
    rewrite G in E1, E2. congruence.
  Qed.
  Lemma norm_axes_nats n p : (forall i, In i p -> i < n) -> norm_axes n (map Z.of_nat p) = Ok p.
  Proof.
    intros H. unfold norm_axes.
    assert (N : forall i, norm_axis n (Z.of_nat i) = Z.of_nat i).
    { intros i. unfold norm_axis. destruct (Z.ltb_spec (Z.of_nat i) 0); lia. }
    replace (forallb _ _) with true.
    - f_equal. rewrite map_map. rewrite <- (map_id p) at 2. apply map_ext. intros i. rewrite N, Nat2Z.id. reflexivity.
    - symmetry. apply forallb_forall. intros z Hz. apply in_map_iff in Hz. destruct Hz as (i & <- & Hi). rewrite N.
      apply H in Hi. apply andb_true_intro. split; [apply Z.leb_le; lia | apply Z.ltb_lt; lia].
  Qed.
  Lemma np_transpose_nat (t : tensor) p : is_perm (rank t) p -> np_transpose t (Some (map Z.of_nat p)) = Ok (transpose t p).
  Proof.
    intros P. unfold np_transpose. rewrite norm_axes_nats by (intros i Hi; apply (is_perm_In i P), Hi). simpl.
    apply is_permb_spec in P. rewrite P. reflexivity.
  Qed.
  (** whatever is accepted is a permutation, negative entries counting from the end *)
  Lemma np_transpose_ok (t : tensor) z u : np_transpose t (Some z) = Ok u ->
    exists p, is_perm (rank t) p /\ is_transpose t p u /\
      Forall2 (fun i j => i = Z.of_nat j \/ i = (Z.of_nat j - Z.of_nat (rank t))%Z) z p.
  Proof.
    unfold np_transpose. unfold norm_axes. destruct (forallb _ z) eqn:F; [|discriminate]. simpl.
    destruct (is_permb _ _) eqn:P; [|discriminate]. intros [= <-]. apply is_permb_spec in P.
    eexists. split; [exact P|]. split; [apply transpose_meets, P|].
    clear P. rewrite forallb_forall in F. induction z as [|i r IH]; simpl; constructor.
    - assert (H := F i (or_introl eq_refl)). apply andb_prop in H. destruct H as [A B]. apply Z.leb_le in A. apply Z.ltb_lt in B.
      unfold norm_axis in *. destruct (Z.ltb_spec i 0); rewrite Z2Nat.id by lia; lia.
    - apply IH. intros j Hj. apply F. right; exact Hj.
  Qed.
  Lemma rev_perm n : is_perm n (rev (seq 0 n)).
  Proof. unfold is_perm. apply Permutation_sym, Permutation_rev. Qed.

  (** composition and inverse, stated on the specification *)
  Lemma is_transpose_comp (t u v : tensor) p q : is_perm (rank t) p -> is_perm (rank t) q ->
    is_transpose t p u -> is_transpose u q v -> is_transpose t (map (fun k => nth k p 0) q) v.
  Proof.
    intros P Q [S1 E1] [S2 E2].
    assert (Lp := is_perm_length P). assert (Lq := is_perm_length Q).
    assert (IQ : forall k, In k q -> k < List.length p) by (intros k Hk; rewrite Lp; apply (is_perm_In k Q), Hk).
    split.
    - rewrite S2, S1, map_map. apply map_ext_in. intros k Hk.
      apply (nth_gather (A := nat)). auto.
    - intros ix V. rewrite <- (E1 ix V).
      assert (W : valid (map (fun i => nth i ix 0) p) (shape u)).
      { rewrite S1. apply (@valid_gather ix (shape t) p V). intros i Hi. apply (is_perm_In i P), Hi. }
      rewrite <- (E2 _ W). f_equal. rewrite map_map. apply map_ext_in. intros k Hk.
      symmetry. apply (nth_gather (A := nat)). auto.
  Qed.
  Lemma is_transpose_id (t : tensor) : is_transpose t (seq 0 (rank t)) t.
  Proof.
    split; [symmetry; apply (gather_seq 0)|]. intros ix V. f_equal. unfold rank. rewrite <- (valid_length V). apply (gather_seq 0).
  Qed.

  (** pivot *)
  Definition as_mat (t : tensor) k : tensor := reshape t [nprod (firstn k (shape t)); nprod (skipn k (shape t))].
  Lemma as_matrix_meets (t : tensor) k : is_matrix_of t k (as_mat t k).
  Proof.
    split; [reflexivity|]. intros ix jx V W. simpl. f_equal.
    rewrite <- (firstn_skipn k (shape t)) at 1.
    replace (ravel _ ix * (nprod (skipn k (shape t)) * 1) + (ravel _ jx * 1 + 0))
      with (ravel (firstn k (shape t)) ix * nprod (skipn k (shape t)) + ravel (skipn k (shape t)) jx) by lia.
    rewrite <- (@ravel_app (firstn k (shape t)) ix (skipn k (shape t)) jx V).
    apply unravel_ravel, valid_app; assumption.
  Qed.
  Lemma backend_pivot_ok any (t : tensor) axis : (axis <= Z.of_nat (rank t))%Z ->
    let k := cut_at (rank t) axis in
    (Z.of_nat (nprod (firstn k (shape t))) < 2 ^ 31)%Z -> (Z.of_nat (nprod (skipn k (shape t))) < 2 ^ 31)%Z ->
    exists u, backend_pivot any t axis = Ok u /\ is_matrix_of t k u.
  Proof.
    intros H k A B. exists (as_mat t k). split; [|apply as_matrix_meets].
    unfold backend_pivot. replace (_ <? axis)%Z with false by (symmetry; apply Z.ltb_ge; lia). fold k.
    change [Z.of_nat (nprod (firstn k (shape t))); Z.of_nat (nprod (skipn k (shape t)))]
      with (map Z.of_nat [nprod (firstn k (shape t)); nprod (skipn k (shape t))]).
    rewrite np_reshape_nat by (constructor; [exact A | constructor; [exact B | constructor]]).
    replace (_ =? _) with true; [reflexivity|]. symmetry. apply Nat.eqb_eq.
    rewrite nprod_pair, <- nprod_app, firstn_skipn. reflexivity.
  Qed.
  Lemma backend_pivot_at any (t : tensor) axis k : k <= rank t ->
    (axis = Z.of_nat k \/ (axis < 0 /\ axis = Z.of_nat k - Z.of_nat (rank t)) \/ (k = 0%nat /\ axis < - Z.of_nat (rank t)))%Z ->
    (Z.of_nat (nprod (firstn k (shape t))) < 2 ^ 31)%Z -> (Z.of_nat (nprod (skipn k (shape t))) < 2 ^ 31)%Z ->
    exists u, backend_pivot any t axis = Ok u /\ is_matrix_of t k u.
  Proof.
    intros Hk Ha A B. assert (cut_at (rank t) axis = k) as E.
    { unfold cut_at. destruct (Z.ltb_spec axis 0); lia. }
    subst k. apply backend_pivot_ok; [lia | exact A | exact B].
  Qed.
  Lemma backend_pivot_bad any (t : tensor) axis : (Z.of_nat (rank t) < axis)%Z -> backend_pivot any t axis = Raise.
  Proof. intros H. unfold backend_pivot. apply Z.ltb_lt in H. rewrite H. reflexivity. Qed.

  (** kron *)
  Lemma kron_perm na nb i j : na = i + i -> nb = j + j ->
    is_perm (na + nb) ((seq 0 i ++ seq na j) ++ (seq i i ++ seq (na + j) j)).
  Proof.
    intros -> ->. unfold is_perm.
    replace (seq 0 (i + i + (j + j))) with ((seq 0 i ++ seq i i) ++ (seq (i + i) j ++ seq (i + i + j) j))
      by (rewrite (seq_app (i + i) (j + j) 0), (seq_app i i 0), (seq_app j j (0 + (i + i))); reflexivity).
    rewrite <- !app_assoc. apply Permutation_app_head. rewrite !app_assoc. apply Permutation_app_tail, Permutation_app_comm.
  Qed.
  Lemma firstn_len_app A (l l' : list A) n : List.length l = n -> firstn n (l ++ l') = l.
  Proof. intros <-. rewrite firstn_app, Nat.sub_diag, firstn_all, firstn_O, app_nil_r. reflexivity. Qed.
  Lemma skipn_len_app A (l l' : list A) n : List.length l = n -> skipn n (l ++ l') = l'.
  Proof. intros <-. rewrite skipn_app, Nat.sub_diag, skipn_all. reflexivity. Qed.
  Lemma gather_kron A (d : A) w x y z i j : List.length w = i -> List.length x = i -> List.length y = j -> List.length z = j ->
    gather d ((w ++ x) ++ (y ++ z)) ((seq 0 i ++ seq (i + i) j) ++ (seq i i ++ seq (i + i + j) j)) = (w ++ y) ++ (x ++ z).
  Proof.
    intros Lw Lx Ly Lz. rewrite !gather_app.
    rewrite !gather_seq_cut by (rewrite !app_length; lia). rewrite skipn_O.
    rewrite <- (app_assoc w x). rewrite (firstn_len_app _ Lw), (skipn_len_app _ Lw), (firstn_len_app _ Lx).
    rewrite (app_assoc w x). rewrite (skipn_len_app (l := w ++ x)) by (rewrite app_length; lia).
    rewrite (firstn_len_app _ Ly). rewrite (app_assoc (w ++ x)).
    rewrite (skipn_len_app (l := (w ++ x) ++ y)) by (rewrite !app_length; lia).
    rewrite <- Lz at 1. rewrite firstn_all. reflexivity.
  Qed.

  Theorem kron_ok na nb (a b : tensor) : Nat.even (rank a) = true -> Nat.even (rank b) = true ->
    exists c, kron (na, a) (nb, b) = Ok (na, c) /\
      shape c = (firstn (rank a / 2) (shape a) ++ firstn (rank b / 2) (shape b)) ++
                (skipn (rank a / 2) (shape a) ++ skipn (rank b / 2) (shape b)) /\
      forall A B C, is_matrix_of a (rank a / 2) A -> is_matrix_of b (rank b / 2) B ->
        is_matrix_of c (rank a / 2 + rank b / 2) C -> is_kron A B C.
  Proof.
    intros Ea Eb. apply Nat.even_spec in Ea, Eb. destruct Ea as [i Ea], Eb as [j Eb].
    assert (Ha : rank a / 2 = i) by (rewrite Ea, Nat.mul_comm; apply Nat.div_mul; lia).
    assert (Hb : rank b / 2 = j) by (rewrite Eb, Nat.mul_comm; apply Nat.div_mul; lia).
    rewrite Ha, Hb.
    set (sa1 := firstn i (shape a)). set (sa2 := skipn i (shape a)). set (sb1 := firstn j (shape b)). set (sb2 := skipn j (shape b)).
    assert (Sa : shape a = sa1 ++ sa2) by (symmetry; apply firstn_skipn).
    assert (Sb : shape b = sb1 ++ sb2) by (symmetry; apply firstn_skipn).
    assert (L1 : List.length sa1 = i) by (unfold sa1; rewrite firstn_length; unfold rank in Ea; lia).
    assert (L2 : List.length sa2 = i) by (unfold sa2; rewrite skipn_length; unfold rank in Ea; lia).
    assert (L3 : List.length sb1 = j) by (unfold sb1; rewrite firstn_length; unfold rank in Eb; lia).
    assert (L4 : List.length sb2 = j) by (unfold sb2; rewrite skipn_length; unfold rank in Eb; lia).
    set (P := (seq 0 i ++ seq (i + i) j) ++ (seq i i ++ seq (i + i + j) j)).
    assert (Pp : is_perm (rank (outer a b)) P).
    { unfold rank. simpl. rewrite app_length. fold (rank a) (rank b).
      replace (rank a) with (i + i) by lia. replace (rank b) with (j + j) by lia. apply kron_perm; reflexivity. }
    exists (transpose (outer a b) P).
    assert (Sc : shape (transpose (outer a b) P) = (sa1 ++ sb1) ++ (sa2 ++ sb2)).
    { simpl. rewrite Sa, Sb. apply gather_kron; assumption. }
    split; [|split; [exact Sc|]].
    - cbv [kron fst snd check_backends forallb]. rewrite String.eqb_refl. cbn [negb andb].
      assert (Ma : rank a mod 2 = 0) by (rewrite Ea, Nat.mul_comm; apply Nat.mod_mul; lia).
      assert (Mb : rank b mod 2 = 0) by (rewrite Eb, Nat.mul_comm; apply Nat.mod_mul; lia).
      rewrite Ma, Mb, Ha, Hb. cbn [negb Nat.eqb]. cbv zeta.
      replace (rank a - i) with i by lia. replace (rank b - j) with j by lia. replace (rank a) with (i + i) by lia.
      fold P. rewrite np_transpose_nat by exact Pp. reflexivity.
    - intros A B C [HA1 HA2] [HB1 HB2] [HC1 HC2].
      exists (nprod sa1), (nprod sa2), (nprod sb1), (nprod sb2).
      assert (F1 : firstn (i + j) (shape (transpose (outer a b) P)) = sa1 ++ sb1)
        by (rewrite Sc; apply firstn_len_app; rewrite app_length; lia).
      assert (F2 : skipn (i + j) (shape (transpose (outer a b) P)) = sa2 ++ sb2)
        by (rewrite Sc; apply skipn_len_app; rewrite app_length; lia).
      rewrite F1, F2 in HC1, HC2. rewrite !nprod_app in HC1.
      split; [exact HA1|]. split; [exact HB1|]. split; [exact HC1|].
      intros x y k l Hx Hy Hk Hl.
      assert (V1 := @unravel_valid sa1 x Hx). assert (V2 := @unravel_valid sa2 y Hy).
      assert (V3 := @unravel_valid sb1 k Hk). assert (V4 := @unravel_valid sb2 l Hl).
      fold sa1 sa2 in HA2. fold sb1 sb2 in HB2.
      specialize (HA2 _ _ V1 V2). specialize (HB2 _ _ V3 V4).
      rewrite !ravel_unravel in HA2, HB2 by assumption.
      specialize (HC2 _ _ (valid_app V1 V3) (valid_app V2 V4)).
      rewrite !ravel_app, !ravel_unravel in HC2 by assumption.
      rewrite HC2, HA2, HB2.
      destruct (transpose_meets Pp) as [_ T].
      specialize (T ((unravel sa1 x ++ unravel sa2 y) ++ (unravel sb1 k ++ unravel sb2 l))).
      change (map (fun i0 => nth i0 ?z 0) P) with (gather 0 z P) in T.
      unfold P at 2 in T. rewrite gather_kron in T by (match goal with V : valid ?q _ |- List.length ?q = _ => rewrite (valid_length V); assumption end).
      rewrite T.
      + simpl. rewrite firstn_len_app, skipn_len_app; [reflexivity | |];
          rewrite app_length, (valid_length V1), (valid_length V2); rewrite L1, L2; unfold rank in *; lia.
      + simpl. rewrite Sa, Sb. apply valid_app; apply valid_app; assumption.
  Qed.
  Lemma kron_odd na nb (a b : tensor) : Nat.odd (rank a) = true \/ Nat.odd (rank b) = true -> kron (na, a) (nb, b) = Raise.
  Proof.
    assert (M : forall n, Nat.odd n = true -> n mod 2 = 1).
    { intros n H. apply Nat.odd_spec in H. destruct H as [k ->]. rewrite Nat.add_comm, Nat.mul_comm, Nat.mod_add by lia. reflexivity. }
    intros H. cbv [kron fst snd check_backends forallb]. rewrite String.eqb_refl. cbn [negb andb]. cbv zeta.
    destruct H as [H | H]; apply M in H; rewrite H; [reflexivity|].
    destruct (rank a mod 2 =? 0); reflexivity.
  Qed.
End Facts.
