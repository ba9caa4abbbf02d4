(** * MpoFacts: nearest-neighbour matrix product operators *)
From Verif Require Import Prelude Algebra Tensor TensorFacts Res Mpo MpoSpec.
Set Implicit Arguments.
Unset Strict Implicit.

Section Facts.
  Context {R : csr}.
  Add Ring Rring : (rsr R).
  Notation tensor := (tensor R).
  Notation op := (@op R).

  Lemma nsum_head n (f : nat -> R) : nsum (S n) f = f 0 +! nsum n (fun i => f (S i)).
  Proof. unfold nsum. cbn [seq]. rewrite lsum_cons, <- seq_shift, lsum_map. reflexivity. Qed.

  (** ** the chain from left to right *)
  Fixpoint chain (ts : list tensor) (l : nat) (s s' : list nat) : R :=
    match ts with
    | [] => r1
    | t :: r => nsum (nth 1 (shape t) 0) (fun b => elt t [l; b; nth 0 s 0; nth 0 s' 0] *! chain r b (tl s) (tl s'))
    end.
  Definition entry_from (l : nat) (ts : list tensor) (s s' : list nat) : R :=
    lsum (idxs (map (fun t => nth 1 (shape t) 0) ts)) (fun b =>
      lprod (seq 0 (length ts)) (fun k =>
        elt (nth k ts (Tensor [] (fun _ => r0))) [nth k (l :: b) 0; nth k b 0; nth k s 0; nth k s' 0])).
  Lemma nth_tl A (l : list A) k d : nth k (tl l) d = nth (S k) l d.
  Proof. destruct l; [destruct k|]; reflexivity. Qed.
  Lemma entry_chain ts : forall l s s', entry_from l ts s s' = chain ts l s s'.
  Proof.
    induction ts as [|t r IH]; intros l s s'; unfold entry_from.
    - cbn. ring.
    - cbn [map]. rewrite lsum_idxs_cons. cbn [chain]. apply nsum_ext. intros b _. rewrite <- IH. unfold entry_from.
      rewrite <- lsum_mul_l. apply lsum_ext. intros bs _. cbn [length seq]. rewrite lprod_cons, <- seq_shift, lprod_map.
      f_equal. apply lprod_ext. intros k _. rewrite !nth_tl. reflexivity.
  Qed.
  Lemma mpo_entry_chain ts s s' : mpo_entry ts s s' = chain ts 0 s s'.
  Proof. apply entry_chain. Qed.

  (** ** products of operators *)
  Lemma product_cons (X : nat -> op) x y s s' : product_op X (x :: s) (y :: s') = X 0 x y *! product_op (fun k => X (S k)) s s'.
  Proof.
    unfold product_op. cbn [length seq]. rewrite lprod_cons, <- seq_shift, lprod_map. reflexivity.
  Qed.
  Lemma product_ext (X Y : nat -> op) s s' : (forall k, k < length s -> X k (nth k s 0) (nth k s' 0) = Y k (nth k s 0) (nth k s' 0)) ->
    product_op X s s' = product_op Y s s'.
  Proof. intros H. apply lprod_ext. intros k Hk. apply in_seq in Hk. apply H. lia. Qed.
  Lemma product_scale (X Y : nat -> op) c n s : forall s', n < length s ->
    (forall i j, X n i j = c *! Y n i j) -> (forall k, k <> n -> X k = Y k) ->
    product_op X s s' = c *! product_op Y s s'.
  Proof.
    intros s' Hn HX HY. unfold product_op. assert (I : In n (seq 0 (length s))) by (apply in_seq; lia).
    apply in_split in I. destruct I as (l1 & l2 & E). assert (ND := seq_NoDup (length s) 0). rewrite E in *.
    apply NoDup_remove_2 in ND. rewrite !lprod_app, !lprod_cons, HX.
    rewrite (lprod_ext l1 (fun k => X k (nth k s 0) (nth k s' 0)) (fun k => Y k (nth k s 0) (nth k s' 0))).
    2:{ intros k Hk. rewrite HY; [reflexivity|]. intros ->. apply ND, in_or_app. auto. }
    rewrite (lprod_ext l2 (fun k => X k (nth k s 0) (nth k s' 0)) (fun k => Y k (nth k s 0) (nth k s' 0))).
    2:{ intros k Hk. rewrite HY; [reflexivity|]. intros ->. apply ND, in_or_app. auto. }
    ring.
  Qed.

  (** ** the automaton: channel 0 is finished, channels 1..m carry the second half of a bond term, m+1 has not started *)
  Section NN.
    Variable m : nat.
    Variable F : nat -> op.
    Variable A : nat -> nat -> op.
    Variable B : nat -> op.
    Definition zero_op : op := fun _ _ => r0.
    Definition ent (n l r : nat) : op :=
      if l =? 0 then (if r =? 0 then one_op else zero_op)
      else if l <=? m then (if r =? 0 then B l else zero_op)
      else (if r =? 0 then F n else if r <=? m then A r n else one_op).
    Definition is_bulk (n : nat) (t : tensor) : Prop :=
      nth 1 (shape t) 0 = m + 2 /\
      forall l r x y, l < m + 2 -> r < m + 2 -> x < 2 -> y < 2 -> elt t [l; r; x; y] = ent n l r x y.
    Definition is_last (n : nat) (t : tensor) : Prop :=
      nth 1 (shape t) 0 = 1 /\ forall l x y, l < m + 2 -> x < 2 -> y < 2 -> elt t [l; 0; x; y] = ent n l 0 x y.
    Definition is_first (n : nat) (t : tensor) : Prop :=
      nth 1 (shape t) 0 = m + 2 /\ forall r x y, r < m + 2 -> x < 2 -> y < 2 -> elt t [0; r; x; y] = ent n (m + 1) r x y.
    Inductive run : nat -> list tensor -> Prop :=
    | run_last n t : is_last n t -> run n [t]
    | run_cons n t r : is_bulk n t -> run (S n) r -> run n (t :: r).

    Definition HH (n N : nat) (s s' : list nat) : R :=
      nsum (N - 1) (fun k => nsum m (fun i => product_op (on2 k (A (S i) (n + k)) (B (S i))) s s')) +!
      nsum N (fun k => product_op (on1 k (F (n + k))) s s').

    Lemma HH_cons n N x y s s' : length s = S N ->
      HH n (S (S N)) (x :: s) (y :: s') =
      F n x y *! product_op (fun _ => one_op) s s' +!
      nsum m (fun i => A (S i) n x y *! product_op (on1 0 (B (S i))) s s') +!
      one_op x y *! HH (S n) (S N) s s'.
    Proof.
      intros L. unfold HH. cbn [Nat.sub]. rewrite Nat.sub_0_r. rewrite (nsum_head N), (nsum_head (S N)).
      rewrite product_cons. replace (n + 0) with n by lia. change (on1 0 (F n) 0 x y) with (F n x y).
      change (product_op (fun k => on1 0 (F n) (S k)) s s') with (product_op (R := R) (fun _ => one_op) s s').
      assert (E2 : nsum m (fun i => product_op (on2 0 (A (S i) n) (B (S i))) (x :: s) (y :: s')) =
                   nsum m (fun i => A (S i) n x y *! product_op (on1 0 (B (S i))) s s')).
      { apply nsum_ext. intros i _. rewrite product_cons. reflexivity. }
      rewrite E2.
      assert (E3 : nsum N (fun k => nsum m (fun i => product_op (on2 (S k) (A (S i) (n + S k)) (B (S i))) (x :: s) (y :: s'))) =
                   one_op x y *! nsum N (fun k => nsum m (fun i => product_op (on2 k (A (S i) (S n + k)) (B (S i))) s s'))).
      { rewrite <- nsum_mul_l. apply nsum_ext. intros k _. rewrite <- nsum_mul_l. apply nsum_ext. intros i _.
        rewrite product_cons. replace (n + S k) with (S n + k) by lia. reflexivity. }
      assert (E4 : nsum (S N) (fun k => product_op (on1 (S k) (F (n + S k))) (x :: s) (y :: s')) =
                   one_op x y *! nsum (S N) (fun k => product_op (on1 k (F (S n + k))) s s')).
      { rewrite <- nsum_mul_l. apply nsum_ext. intros k _.
        rewrite product_cons. replace (n + S k) with (S n + k) by lia. reflexivity. }
      rewrite E3, E4. ring.
    Qed.

    Lemma nsum_channels (f : nat -> R) : nsum (m + 2) f = f 0 +! nsum m (fun i => f (S i)) +! f (m + 1).
    Proof.
      replace (m + 2) with (S (S m)) by lia. rewrite nsum_S, nsum_head. replace (S m) with (m + 1) by lia. reflexivity.
    Qed.

    (** the row sum for each left channel *)
    Lemma row_sum (n l x y : nat) (f : nat -> R) : l < m + 2 ->
      nsum (m + 2) (fun r => ent n l r x y *! f r) =
      if l =? 0 then one_op x y *! f 0 else if l <=? m then B l x y *! f 0
      else F n x y *! f 0 +! nsum m (fun i => A (S i) n x y *! f (S i)) +! one_op x y *! f (m + 1).
    Proof.
      intros Hl. rewrite nsum_channels.
      assert (Z : forall g : nat -> R, (forall i, i < m -> g (S i) = r0) -> nsum m (fun i => g (S i)) = r0)
        by (intros g Hg; apply nsum_zero; exact Hg).
      unfold ent. replace (m + 1 =? 0) with false by (symmetry; apply Nat.eqb_neq; lia). cbn [Nat.eqb].
      destruct (l =? 0) eqn:E0; [|destruct (l <=? m) eqn:E1].
      - rewrite nsum_zero by (intros; unfold zero_op; ring). unfold zero_op. ring.
      - rewrite nsum_zero by (intros; unfold zero_op; ring). unfold zero_op. ring.
      - replace (m + 1 <=? m) with false by (symmetry; apply Nat.leb_gt; lia).
        f_equal. f_equal. apply nsum_ext. intros i Hi. replace (S i <=? m) with true by (symmetry; apply Nat.leb_le; lia). reflexivity.
    Qed.

    Lemma chain_run n ts : run n ts -> forall s s', spins (length ts) s -> spins (length ts) s' ->
      chain ts 0 s s' = product_op (fun _ => one_op) s s' /\
      (forall i, i < m -> chain ts (S i) s s' = product_op (on1 0 (B (S i))) s s') /\
      chain ts (m + 1) s s' = HH n (length ts) s s'.
    Proof.
      induction 1 as [n t [D E]|n t r [D E] Hr IH]; intros s s' [L Hs] [L' Hs'].
      - destruct s as [|x [|]]; try discriminate L. destruct s' as [|y [|]]; try discriminate L'.
        inversion Hs as [|? ? Hx _]; subst. inversion Hs' as [|? ? Hy _]; subst.
        cbn [chain]. rewrite !D. cbn [length nth].
        assert (G : forall l, nsum 1 (fun b => elt t [l; b; x; y] *! r1) = elt t [l; 0; x; y]).
        { intros l. unfold nsum. simpl. ring. }
        assert (P : forall X : nat -> op, product_op X [x] [y] = X 0 x y).
        { intros X. unfold product_op. simpl. ring. }
        rewrite !G, !E by lia. split; [|split].
        + rewrite P. reflexivity.
        + intros i Hi. rewrite G, E by lia. rewrite P. unfold ent. simpl.
          destruct m as [|m']; [lia|]. replace (i <=? m') with true by (symmetry; apply Nat.leb_le; lia). reflexivity.
        + unfold HH. simpl. unfold nsum. simpl. rewrite P. unfold ent.
          replace (m + 1 =? 0) with false by (symmetry; apply Nat.eqb_neq; lia).
          replace (m + 1 <=? m) with false by (symmetry; apply Nat.leb_gt; lia). simpl.
          replace (n + 0) with n by lia. unfold on1. simpl. ring.
      - destruct s as [|x s]; [discriminate L|]. destruct s' as [|y s']; [discriminate L'|].
        inversion Hs as [|? ? Hx Hss]; subst. inversion Hs' as [|? ? Hy Hss']; subst.
        injection L as L. injection L' as L'.
        destruct (IH s s' (conj L Hss) (conj L' Hss')) as (C0 & Ci & Cm).
        assert (G : forall l, l < m + 2 -> chain (t :: r) l (x :: s) (y :: s') = nsum (m + 2) (fun b => ent n l b x y *! chain r b s s')).
        { intros l Hl. cbn [chain nth tl]. rewrite D. apply nsum_ext. intros b Hb. rewrite E by lia. reflexivity. }
        split; [|split].
        + rewrite G, row_sum by lia. cbn [Nat.eqb]. rewrite C0, product_cons. reflexivity.
        + intros i Hi. rewrite G, row_sum by lia. cbn [Nat.eqb]. replace (S i <=? m) with true by (symmetry; apply Nat.leb_le; lia).
          rewrite C0, product_cons. reflexivity.
        + rewrite G, row_sum by lia. replace (m + 1 =? 0) with false by (symmetry; apply Nat.eqb_neq; lia).
          replace (m + 1 <=? m) with false by (symmetry; apply Nat.leb_gt; lia).
          rewrite C0, Cm. rewrite (@nsum_ext R _ _ (fun i => A (S i) n x y *! product_op (on1 0 (B (S i))) s s'))
            by (intros i Hi; rewrite Ci by exact Hi; reflexivity).
          assert (Lr : exists N, length r = S N) by (inversion Hr; simpl; eauto). destruct Lr as (N & Lr).
          cbn [length]. rewrite Lr, HH_cons by congruence. reflexivity.
    Qed.
    Lemma chain_first t r : is_first 0 t -> run 1 r -> forall s s', spins (S (length r)) s -> spins (S (length r)) s' ->
      chain (t :: r) 0 s s' = HH 0 (S (length r)) s s'.
    Proof.
      intros [D E] Hr s s' [L Hs] [L' Hs'].
      destruct s as [|x s]; [discriminate L|]. destruct s' as [|y s']; [discriminate L'|].
      inversion Hs as [|? ? Hx Hss]; subst. inversion Hs' as [|? ? Hy Hss']; subst.
      injection L as L. injection L' as L'.
      destruct (chain_run Hr (conj L Hss) (conj L' Hss')) as (C0 & Ci & Cm).
      assert (Lr : exists N, length r = S N) by (inversion Hr; simpl; eauto). destruct Lr as (N & Lr).
      rewrite Lr, HH_cons by congruence. cbn [chain nth tl]. rewrite D.
      rewrite (@nsum_ext R _ _ (fun b => ent 0 (m + 1) b x y *! chain r b s s')) by (intros b Hb; rewrite E by lia; reflexivity).
      rewrite row_sum by lia. replace (m + 1 =? 0) with false by (symmetry; apply Nat.eqb_neq; lia).
      replace (m + 1 <=? m) with false by (symmetry; apply Nat.leb_gt; lia).
      rewrite C0, Cm. rewrite (@nsum_ext R _ _ (fun i => A (S i) 0 x y *! product_op (on1 0 (B (S i))) s s'))
        by (intros i Hi; rewrite Ci by exact Hi; reflexivity).
      rewrite Lr. reflexivity.
    Qed.
  End NN.
End Facts.
