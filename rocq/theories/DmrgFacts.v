(** * DmrgFacts: the environments stay right under every method *)
From Coq Require Import List ZArith Lia Permutation.
From Verif Require Import Prelude Res Algebra Tensor TensorFacts ListFacts BlockSparse Backends DecompFacts Mps MpsSpec MpsNcon MpsSplit MpsState MpsPosition
  MpsEnv Dmrg DmrgNcon DmrgSpec DmrgTriple DmrgMatvec.
Import ListNotations.
Set Implicit Arguments.
Unset Strict Implicit.
Local Open Scope nat_scope.
Local Open Scope csr_scope.

Lemma firstn_set_nth A n i (v : A) l : n <= i -> firstn n (set_nth i v l) = firstn n l.
Proof. revert n i. induction l as [|x l IH]; intros n [|i] H; cbn [set_nth]; try reflexivity; destruct n; try lia; try reflexivity. cbn. f_equal. apply IH. lia. Qed.
Lemma skipn_set_nth A n i (v : A) l : i < n -> skipn n (set_nth i v l) = skipn n l.
Proof. revert n i. induction l as [|x l IH]; intros n [|i] H; cbn [set_nth]; try reflexivity; destruct n; try lia; try reflexivity. cbn. apply IH. lia. Qed.
Lemma firstn_le A n m (l l' : list A) : n <= m -> firstn m l' = firstn m l -> firstn n l' = firstn n l.
Proof. intros H E. rewrite <- (Nat.min_l n m H), <- !firstn_firstn, E. reflexivity. Qed.
Lemma skipn_le A n m (l l' : list A) : m <= n -> skipn m l' = skipn m l -> skipn n l' = skipn n l.
Proof. intros H E. replace n with (m + (n - m)) by lia. rewrite <- !skipn_skipn', E. reflexivity. Qed.

Section Dict.
  Context {R : cjr}.
  Notation tensor := (Tensor.tensor R).
  Notation dict := (@dict R).
  Lemma dget_ddel (d : dict) k j : dget (ddel d k) j = if j =? k then Raise else dget d j.
  Proof.
    unfold dget, ddel. induction d as [|[a v] d IH]; cbn; [destruct (j =? k); reflexivity|].
    destruct (Nat.eqb_spec a k) as [->|N]; cbn [negb].
    - destruct (Nat.eqb_spec k j) as [->|N']; [rewrite IH, Nat.eqb_refl; reflexivity|]. exact IH.
    - cbn. destruct (Nat.eqb_spec a j) as [->|N']; [|exact IH]. destruct (Nat.eqb_spec j k); [contradiction | reflexivity].
  Qed.
  Lemma dget_dset (d : dict) k v j : dget (dset d k v) j = if j =? k then Ok v else dget d j.
  Proof.
    unfold dset. change (dget ((k, v) :: ddel d k) j) with (match (if k =? j then Some (k, v) else find (fun x => fst x =? j) (ddel d k)) with Some x => Ok (snd x) | None => Raise end).
    rewrite (Nat.eqb_sym j k). destruct (Nat.eqb_spec k j) as [->|N]; [reflexivity|]. change (dget (ddel d k) j = dget d j). rewrite dget_ddel.
    destruct (Nat.eqb_spec j k); [congruence | reflexivity].
  Qed.
  Lemma dget_del_all ks : forall (d : dict) j, dget (fold_left ddel ks d) j = if existsb (Nat.eqb j) ks then Raise else dget d j.
  Proof.
    induction ks as [|k ks IH]; intros d j; [reflexivity|]. cbn [fold_left existsb]. rewrite IH, dget_ddel. destruct (j =? k); cbn [orb]; [|reflexivity].
    destruct (existsb _ ks); reflexivity.
  Qed.
  Lemma dget_del_range a n (d : dict) j : dget (fold_left ddel (seq a n) d) j = if (a <=? j) && (j <? a + n) then Raise else dget d j.
  Proof.
    rewrite dget_del_all. replace (existsb (Nat.eqb j) (seq a n)) with ((a <=? j) && (j <? a + n)); [reflexivity|].
    apply Bool.eq_true_iff_eq. rewrite Bool.andb_true_iff, Nat.leb_le, Nat.ltb_lt, existsb_exists. split.
    - intros H. exists j. rewrite in_seq, Nat.eqb_refl. auto.
    - intros (x & Hx & E). apply Nat.eqb_eq in E. subst x. apply in_seq in Hx. exact Hx.
  Qed.
End Dict.

Section Inv.
  Context {R : cjr} {E : Type}.
  Add Ring Rring : (rsr R).
  Notation tensor := (Tensor.tensor R).
  Variable iter : list Z -> list Z.
  Variable qrf : tensor -> res (tensor * tensor).
  Variable svdf : tensor -> res (tensor * list R * tensor).
  Variable nkeep : bool -> option nat -> option E -> list R -> nat.
  Variable err_ge1 : E -> bool.
  Variable nrm : tensor -> R.
  Variable rdiv : R -> R -> R.
  Variable eigs : (tensor -> res tensor) -> tensor -> res (R * tensor).
  Hypothesis iter_perm : forall l, Permutation (iter l) l.
  Hypothesis Hqr : qr_ok qrf.
  Hypothesis Hsvd : svd_ok svdf.
  (** the eigensolver returns a vector of the same shape; there is none in an empty space *)
  Hypothesis Heig : forall A t e v, eigs A t = Ok (e, v) -> shape v = shape t /\ 0 < nprod (shape t).

  Variables (wl wr l r : nat) (lb rb : tensor).
  Hypothesis Slb : shape lb = [wl; l; l].
  Hypothesis Srb : shape rb = [wr; r; r].

  Notation lgood := (DmrgSpec.lgood wl l lb).
  Notation rgood := (DmrgSpec.rgood wr r rb).

  Lemma ochain_app (w1 : list tensor) : forall w2 D1 D2 a b, length w1 = length D1 -> ochain a (w1 ++ w2) (D1 ++ D2) b <-> exists m, ochain a w1 D1 m /\ ochain m w2 D2 b.
  Proof.
    induction w1 as [|W w1 IH]; intros w2 [|d D1] D2 a b L; try discriminate; cbn [app ochain].
    - split; [intros H; exists a; auto | intros (m & <- & H); exact H].
    - cbn in L. split.
      + intros (k & S1 & O). apply IH in O; [|lia]. destruct O as (m & O1 & O2). exists m. split; [exists k; auto | exact O2].
      + intros (m & (k & S1 & O1) & O2). exists k. split; [exact S1|]. apply IH; [lia|]. exists m. auto.
  Qed.
  Lemma phys_firstn n (ts : list tensor) : phys (firstn n ts) = firstn n (phys ts).
  Proof. unfold phys. symmetry. apply firstn_map. Qed.
  Lemma phys_skipn n (ts : list tensor) : phys (skipn n ts) = skipn n (phys ts).
  Proof. unfold phys. symmetry. apply skipn_map. Qed.
  Lemma ochain_len (ws : list tensor) : forall a D b, ochain a ws D b -> length ws = length D.
  Proof. induction ws as [|W ws IH]; intros a [|d D] b O; try contradiction; [reflexivity|]. destruct O as (k & _ & O). cbn. f_equal. exact (IH _ _ _ O). Qed.
  Lemma ochain_cut (ws : list tensor) D a b n W : ochain a ws D b -> nth_error ws n = Some W ->
    exists m k d, ochain a (firstn n ws) (firstn n D) m /\ shape W = [m; k; d; d] /\ nth_error D n = Some d /\ ochain k (skipn (n + 1) ws) (skipn (n + 1) D) b.
  Proof.
    revert ws D a. induction n as [|n IH]; intros [|V ws] [|d D] a O H; try discriminate; try contradiction; cbn in H.
    - injection H as ->. destruct O as (k & S1 & O). exists a, k, d. cbn. repeat split; auto.
    - destruct O as (k & S1 & O). destruct (IH ws D k O H) as (m & k' & d' & O1 & S2 & N & O2). exists m, k', d'. cbn [firstn skipn Nat.add nth_error].
      repeat split; auto. exists k. auto.
  Qed.
  Lemma ochain_fun (ws : list tensor) : forall a D b b', ochain a ws D b -> ochain a ws D b' -> b = b'.
  Proof. induction ws as [|W ws IH]; intros a [|d D] b b' O O'; try contradiction; cbn in O, O'; [congruence|]. destruct O as (k & S1 & O). destruct O' as (k' & S1' & O'). rewrite S1 in S1'. injection S1' as <-. exact (IH _ _ _ _ O O'). Qed.
  Lemma ochain_fun_l (ws : list tensor) : forall a a' D b, ws <> [] -> ochain a ws D b -> ochain a' ws D b -> a = a'.
  Proof. destruct ws as [|W ws]; intros a a' [|d D] b N O O'; try contradiction. destruct O as (k & S1 & O). destruct O' as (k' & S1' & O'). congruence. Qed.

  (** ** one layer *)
  Lemma five (m wm d : nat) (f : nat -> nat -> nat -> nat -> nat -> R) :
    nsum m (fun a => nsum wm (fun w => nsum d (fun s => nsum d (fun s' => nsum m (fun a' => f w a a' s s'))))) =
    lsum (idxs [wm; m; m]) (fun z => nsum d (fun s => nsum d (fun s' => f (nth 0 z 0) (nth 1 z 0) (nth 2 z 0) s s'))).
  Proof.
    rewrite lsum_idxs3. unfold nsum. rewrite lsum_swap. apply lsum_ext. intros w _. apply lsum_ext. intros a _. cbn [nth].
    rewrite (MpsDouble.lsum_swap12 (seq 0 m) (seq 0 d) (seq 0 d)). reflexivity.
  Qed.
  Lemma left_step ts ws n e t W rr ww : chain l ts rr -> ochain wl ws (phys ts) ww -> lgood ts ws n e -> nth_error ts n = Some t -> nth_error ws n = Some W ->
    exists e', add_left_layer iter e t W = Ok e' /\ lgood ts ws (n + 1) e'.
  Proof.
    intros C O (k & wk & Ck & Ok1 & Se & V) Ht HW.
    destruct (chain_cut C Ht) as (m & d & k' & C1 & St & C2). pose proof (chain_det C1 Ck) as ->.
    destruct (ochain_cut O HW) as (wm & wk' & d' & O1 & SW & Nd & O2). rewrite <- phys_firstn in O1. pose proof (ochain_fun O1 Ok1) as ->.
    assert (d' = d) as ->. { unfold phys in Nd. rewrite nth_error_map, Ht in Nd. cbn in Nd. rewrite St in Nd. injection Nd as <-. reflexivity. }
    destruct (ncon_left_layer iter_perm Se St SW) as (e' & E' & Se' & V'). exists e'. split; [exact E'|].
    exists k', wk'. rewrite (firstn_snoc Ht), (firstn_snoc HW).
    split; [apply chain_app; exists k; split; [exact C1 | exists d, k'; split; [exact St | reflexivity]]|].
    rewrite phys_app. split.
    { apply ochain_app; [exact (ochain_len Ok1)|]. exists wk. split; [exact Ok1|]. cbn. rewrite St. cbn. exists wk'. auto. }
    split; [exact Se'|]. intros z Vz. destruct (valid3 Vz) as (x & b & b' & -> & Hx & Hb & Hb'). rewrite (V' x b b' Hx Hb Hb').
    rewrite (left_env_snoc Slb C1 Ok1 St SW Vz).
    rewrite (five k wk d (fun w a a' s s' => elt e [w; a; a'] *! (elt t [a; s; b] *! (elt W [w; x; s'; s] *! cj (elt t [a'; s'; b']))))).
    apply lsum_ext. intros z Hz. apply in_idxs3 in Hz. rewrite <- (V z Hz). destruct (valid3 Hz) as (w & a & a' & -> & Hw & Ha & Ha'). cbn [nth]. unfold tri. rewrite St. cbn [nth].
    rewrite <- nsum_mul_l. apply nsum_ext. intros s _. rewrite <- nsum_mul_l. apply nsum_ext. intros s' _. ring.
  Qed.
  Lemma right_step ts ws n e t W : forall ll ww, chain ll ts r -> ochain ww ws (phys ts) wr -> rgood ts ws (n + 1) e -> nth_error ts (n + 1) = Some t -> nth_error ws (n + 1) = Some W ->
    exists e', add_right_layer iter e t W = Ok e' /\ rgood ts ws n e'.
  Proof.
    intros ll ww C O (k & wk & Ck & Ok1 & Se & V) Ht HW.
    destruct (chain_cut C Ht) as (m & d & k' & C1 & St & C2). pose proof (chain_det_l C2 Ck) as ->.
    destruct (ochain_cut O HW) as (wm & wk' & d' & O1 & SW & Nd & O2). rewrite <- phys_skipn in O2.
    assert (d' = d) as ->. { unfold phys in Nd. rewrite nth_error_map, Ht in Nd. cbn in Nd. rewrite St in Nd. injection Nd as <-. reflexivity. }
    assert (wk' = wk) as ->.
    { destruct (skipn (n + 1 + 1) ws) as [|W' q] eqn:Eq; [|refine (ochain_fun_l _ O2 Ok1); discriminate].
      destruct (phys (skipn (n + 1 + 1) ts)); [|contradiction]. cbn in O2, Ok1. congruence. }
    destruct (ncon_right_layer iter_perm Se St SW) as (e' & E' & Se' & V'). exists e'. split; [exact E'|].
    exists m, wm. rewrite (skipn_cons Ht), (skipn_cons HW).
    split; [exists d, k; auto|]. split. { cbn. rewrite St. cbn. exists wk. split; [exact SW | exact Ok1]. }
    split; [exact Se'|]. intros z Vz. destruct (valid3 Vz) as (x & b & b' & -> & Hx & Hb & Hb'). rewrite (V' x b b' Hx Hb Hb').
    rewrite (right_env_cons rb _ _ _ St SW).
    rewrite (five k wk d (fun w a a' s s' => elt e [w; a; a'] *! (elt t [b; s; a] *! (elt W [x; w; s'; s] *! cj (elt t [b'; s'; a']))))).
    apply lsum_ext. intros z Hz. apply in_idxs3 in Hz. rewrite <- (V z Hz). destruct (valid3 Hz) as (w & a & a' & -> & Hw & Ha & Ha'). cbn [nth]. unfold tri. rewrite St. cbn [nth].
    rewrite <- nsum_mul_r. apply nsum_ext. intros s _. rewrite <- nsum_mul_r. apply nsum_ext. intros s' _. ring.
  Qed.

  (** ** loops *)
  Lemma get_some A (ts : list A) n x : nth_error ts n = Some x -> match nth_error ts n with Some t => Ok t | None => Raise end = Ok x.
  Proof. intros ->. reflexivity. Qed.
  Section Loops.
    Variables (ts ws : list tensor).
    Hypothesis C : chain l ts r.
    Hypothesis O : ochain wl ws (phys ts) wr.
    Lemma ws_length : length ws = length ts.
    Proof. rewrite (ochain_len O), phys_length. reflexivity. Qed.
    Lemma add_lefts_spec j : forall c d e, c + j <= length ts -> dget d c = Ok e -> lgood ts ws c e ->
      exists d', add_lefts iter ts ws (seq c j) d = Ok d' /\
      (forall n, c <= n <= c + j -> exists e, dget d' n = Ok e /\ lgood ts ws n e) /\ (forall n, ~ (c < n <= c + j) -> dget d' n = dget d n).
    Proof.
      induction j as [|j IH]; intros c d e L D G.
      - exists d. split; [reflexivity|]. split; [|reflexivity]. intros n Hn. replace n with c by lia. exists e. auto.
      - cbn [seq add_lefts]. rewrite D. cbn [rbind]. destruct (nth_error ts c) as [t|] eqn:Ht; [|apply nth_error_None in Ht; lia].
        destruct (nth_error ws c) as [W|] eqn:HW; [|apply nth_error_None in HW; rewrite ws_length in HW; lia].
        unfold get. rewrite Ht, HW. cbn [rbind]. destruct (left_step C O G Ht HW) as (e' & E' & G'). rewrite E'. cbn [rbind].
        destruct (IH (c + 1) (dset d (c + 1) e') e') as (d' & D' & P & Q); [lia | rewrite dget_dset, Nat.eqb_refl; reflexivity | exact G'|].
        rewrite Nat.add_1_r in *. exists d'. split; [exact D'|]. split.
        + intros n Hn. destruct (Nat.eq_dec n c) as [->|N]; [|apply P; lia]. exists e. split; [|exact G]. rewrite Q by lia. rewrite dget_dset.
          destruct (Nat.eqb_spec c (S c)); [lia | exact D].
        + intros n Hn. rewrite Q by lia. rewrite dget_dset. destruct (Nat.eqb_spec n (S c)); [lia | reflexivity].
    Qed.
    Lemma add_rights_spec j : forall s d e, s + j < length ts -> dget d (s + j) = Ok e -> rgood ts ws (s + j) e ->
      exists d', add_rights iter ts ws (rev (seq s j)) d = Ok d' /\
      (forall n, s <= n <= s + j -> exists e, dget d' n = Ok e /\ rgood ts ws n e) /\ (forall n, ~ (s <= n < s + j) -> dget d' n = dget d n).
    Proof.
      induction j as [|j IH]; intros s d e L D G.
      - exists d. split; [reflexivity|]. split; [|reflexivity]. intros n Hn. replace n with (s + 0) by lia. exists e. auto.
      - rewrite MpsPosition.rev_seq_S. cbn [add_rights]. replace (s + S j) with (s + j + 1) in * by lia. rewrite D. cbn [rbind].
        destruct (nth_error ts (s + j + 1)) as [t|] eqn:Ht; [|apply nth_error_None in Ht; lia].
        destruct (nth_error ws (s + j + 1)) as [W|] eqn:HW; [|apply nth_error_None in HW; rewrite ws_length in HW; lia].
        unfold get. rewrite Ht, HW. cbn [rbind]. destruct (right_step C O G Ht HW) as (e' & E' & G'). rewrite E'. cbn [rbind].
        destruct (IH s (dset d (s + j) e') e') as (d' & D' & P & Q); [lia | rewrite dget_dset, Nat.eqb_refl; reflexivity | exact G'|].
        exists d'. split; [exact D'|]. split.
        + intros n Hn. destruct (Nat.eq_dec n (s + j + 1)) as [->|N]; [|apply P; lia]. exists e. split; [|exact G]. rewrite Q by lia. rewrite dget_dset.
          destruct (Nat.eqb_spec (s + j + 1) (s + j)); [lia | exact D].
        + intros n Hn. rewrite Q by lia. rewrite dget_dset. destruct (Nat.eqb_spec n (s + j)); [lia | reflexivity].
    Qed.
  End Loops.
  Lemma lgood_change ts ts' ws n e : firstn n ts' = firstn n ts -> lgood ts ws n e -> lgood ts' ws n e.
  Proof. unfold lgood. intros ->. auto. Qed.
  Lemma rgood_change ts ts' ws n e : skipn (n + 1) ts' = skipn (n + 1) ts -> rgood ts ws n e -> rgood ts' ws n e.
  Proof. unfold rgood. intros ->. auto. Qed.

  (** ** what [position] leaves alone *)
  Lemma loop_local (step : list tensor -> nat -> res (list tensor * R)) (lo hi : nat) ns :
    (forall n ts ts' z, In n ns -> step ts n = Ok (ts', z) -> firstn lo ts' = firstn lo ts /\ skipn hi ts' = skipn hi ts) ->
    forall ts ts' z0 z, loop step ns ts z0 = Ok (ts', z) -> firstn lo ts' = firstn lo ts /\ skipn hi ts' = skipn hi ts.
  Proof.
    induction ns as [|n ns IH]; intros Hs ts ts' z0 z H; cbn [loop] in H.
    - injection H as <- <-. auto.
    - destruct (step ts n) as [[ts1 z1]| |] eqn:F; try discriminate. cbn [rbind] in H.
      destruct (Hs n ts ts1 z1 (or_introl eq_refl) F) as [A B].
      destruct (IH (fun k a b c I => Hs k a b c (or_intror I)) _ _ _ _ H) as [A' B']. split; congruence.
  Qed.
  Lemma move_right_local nz D err n ts ts' z : move_right iter qrf svdf nkeep nrm rdiv nz D err ts n = Ok (ts', z) ->
    forall lo hi, lo <= n -> n + 1 < hi -> firstn lo ts' = firstn lo ts /\ skipn hi ts' = skipn hi ts.
  Proof.
    unfold move_right. intros H lo hi Hl Hh. destruct (get ts n) as [t| |]; try discriminate. cbn [rbind] in H.
    destruct (split_right iter qrf svdf nkeep D err ts n t) as [[iso rest]| |]; try discriminate. cbn [rbind] in H.
    destruct (get (set_nth n iso ts) (n + 1)) as [u| |]; try discriminate. cbn [rbind] in H.
    destruct (Mps.ncon_z _ _ _) as [w| |]; try discriminate. cbn [rbind] in H. injection H as <- _.
    rewrite !firstn_set_nth, !skipn_set_nth by lia. auto.
  Qed.
  Lemma move_left_local nz D err n ts ts' z : move_left iter qrf svdf nkeep nrm rdiv nz D err ts n = Ok (ts', z) ->
    forall lo hi, lo <= n - 1 -> n < hi -> firstn lo ts' = firstn lo ts /\ skipn hi ts' = skipn hi ts.
  Proof.
    unfold move_left. intros H lo hi Hl Hh. destruct (get ts n) as [t| |]; try discriminate. cbn [rbind] in H.
    destruct (split_left iter qrf svdf nkeep D err ts n t) as [[rest iso]| |]; try discriminate. cbn [rbind] in H.
    destruct (get (set_nth n iso ts) (n - 1)) as [u| |]; try discriminate. cbn [rbind] in H.
    destruct (Mps.ncon_z _ _ _) as [w| |]; try discriminate. cbn [rbind] in H. injection H as <- _.
    rewrite !firstn_set_nth, !skipn_set_nth by lia. auto.
  Qed.
  Lemma position_local nz D err m m' s z c : centre m = Some c -> position iter qrf svdf nkeep err_ge1 nrm rdiv nz D err m (Z.of_nat s) = Ok (m', z) ->
    firstn (Nat.min c s) (tens m') = firstn (Nat.min c s) (tens m) /\ skipn (Nat.max c s + 1) (tens m') = skipn (Nat.max c s + 1) (tens m).
  Proof.
    unfold position. intros -> H. destruct (match err with Some e => negb (err_ge1 e) | None => true end); [|discriminate]. cbn [guard] in H.
    destruct (negb _); [|discriminate]. cbn [guard] in H. rewrite Nat2Z.id in H.
    destruct (Nat.eqb_spec s c) as [->|N].
    - destruct (get (tens m) c) as [t| |]; try discriminate. cbn [rbind] in H. injection H as <- _. cbn [tens].
      destruct nz; [|auto]. rewrite firstn_set_nth, skipn_set_nth by lia. auto.
    - destruct (Nat.ltb_spec c s) as [L|L].
      + destruct (loop _ _ (tens m) r0) as [[ts' z']| |] eqn:F; try discriminate. cbn [rbind] in H. injection H as <- _. cbn [tens].
        apply (loop_local (lo := Nat.min c s) (hi := Nat.max c s + 1)) in F; [exact F|].
        intros n a b z0 I M. apply in_seq in I. apply (move_right_local M); lia.
      + destruct (loop _ _ (tens m) r0) as [[ts' z']| |] eqn:F; try discriminate. cbn [rbind] in H. injection H as <- _. cbn [tens].
        apply (loop_local (lo := Nat.min c s) (hi := Nat.max c s + 1)) in F; [exact F|].
        intros n a b z0 I M. rewrite <- in_rev in I. apply in_seq in I. apply (move_left_local M); lia.
  Qed.

  (** ** the invariant *)
  Record sound (c : nat) (d : dmrg R) : Prop := {
    s_centre : centre (dmps d) = Some c;
    s_lt : c < length (tens (dmps d));
    s_chain : chain l (tens (dmps d)) r;
    s_ochain : ochain wl (dmpo d) (phys (tens (dmps d))) wr;
    s_left : forall n e, n <= c -> dget (lenvs d) n = Ok e -> lgood (tens (dmps d)) (dmpo d) n e;
    s_right : forall n e, c <= n < length (tens (dmps d)) -> dget (renvs d) n = Ok e -> rgood (tens (dmps d)) (dmpo d) n e }.
  (** everything needed at the centre and beyond is there *)
  Definition ready (c : nat) (d : dmrg R) : Prop :=
    (forall n, n <= c -> exists e, dget (lenvs d) n = Ok e) /\ (forall n, c <= n < length (tens (dmps d)) -> exists e, dget (renvs d) n = Ok e).
End Inv.
