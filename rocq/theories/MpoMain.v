(** * MpoMain: FiniteXXZ and FiniteTFI are their Hamiltonians *)
From Verif Require Import Prelude Algebra Tensor TensorFacts Res Mpo MpoSpec MpoFacts.
Set Implicit Arguments.
Unset Strict Implicit.

Section Main.
  Context {R : csr}.
  Add Ring Rring : (rsr R).
  Notation tensor := (tensor R).
  Notation op := (@op R).
  Variables half mone : R.

  (** ** XXZ *)
  Definition xF (Bz : nat -> R) : nat -> op := fun n => mscale (Bz n) (Sz half mone).
  Definition xA (Jz Jxy : nat -> R) : nat -> nat -> op := fun i n =>
    match i with 1 => mscale (Jxy n *! half) Sm | 2 => mscale (Jxy n *! half) Sp | _ => mscale (Jz n) (Sz half mone) end.
  Definition xB : nat -> op := fun i => match i with 1 => Sp | 2 => Sm | _ => Sz half mone end.
  Ltac bits := repeat match goal with
    | H : ?l < S ?n |- _ => destruct l as [|l]; [clear H | apply Nat.succ_lt_mono in H]
    | H : _ < 0 |- _ => exfalso; apply (Nat.nlt_0_r _ H)
    end.
  Lemma xxz_bulk_ok Jz Jxy Bz n : is_bulk 3 (xF Bz) (xA Jz Jxy) xB n (xxz_bulk half mone (Jz n) (Jxy n) (Bz n)).
  Proof.
    split; [reflexivity|]. cbn [Nat.add]. intros l r x y Hl Hr Hx Hy.
    bits; cbv -[car radd rmul r0 r1]; ring.
  Qed.
  Lemma xxz_last_ok Jz Jxy Bz n : is_last 3 (xF Bz) (xA Jz Jxy) xB n (xxz_last half mone (Bz n)).
  Proof.
    split; [reflexivity|]. cbn [Nat.add]. intros l x y Hl Hx Hy.
    bits; cbv -[car radd rmul r0 r1]; ring.
  Qed.
  Lemma xxz_first_ok Jz Jxy Bz n : is_first 3 (xF Bz) (xA Jz Jxy) xB n (xxz_first half mone (Jz n) (Jxy n) (Bz n)).
  Proof.
    split; [reflexivity|]. cbn [Nat.add]. intros r x y Hr Hx Hy.
    bits; cbv -[car radd rmul r0 r1]; ring.
  Qed.
  Lemma scale_on1 (c : R) n (X : op) s s' : n < length s -> product_op (on1 n (mscale c X)) s s' = c *! product_op (on1 n X) s s'.
  Proof.
    intros H. apply product_scale with (n := n); [exact H | |].
    - intros i j. unfold on1. rewrite Nat.eqb_refl. reflexivity.
    - intros k Hk. unfold on1. apply Nat.eqb_neq in Hk. rewrite Hk. reflexivity.
  Qed.
  Lemma scale_on2 (c : R) n (X Y : op) s s' : n < length s -> product_op (on2 n (mscale c X) Y) s s' = c *! product_op (on2 n X Y) s s'.
  Proof.
    intros H. apply product_scale with (n := n); [exact H | |].
    - intros i j. unfold on2. rewrite Nat.eqb_refl. reflexivity.
    - intros k Hk. unfold on2. apply Nat.eqb_neq in Hk. rewrite Hk. reflexivity.
  Qed.
  Lemma xxz_HH Jz Jxy Bz N s s' : length s = N ->
    HH 3 (xF Bz) (xA Jz Jxy) xB 0 N s s' = H_xxz half mone Jz Jxy Bz N s s'.
  Proof.
    intros L. unfold HH, H_xxz. cbv zeta. f_equal; apply nsum_ext; intros n Hn.
    - unfold nsum at 1. cbn [seq lsum fold_right xA xB Nat.add]. rewrite !scale_on2 by lia. ring.
    - unfold xF. cbn [Nat.add]. rewrite scale_on1 by lia. reflexivity.
  Qed.

  Definition at_ (l : list R) (n : nat) : R := nth n l r0.
  Lemma read_ok l n : n < length l -> read l n = Ok (at_ l n).
  Proof. intros H. unfold read. rewrite (nth_error_nth' l r0 H). reflexivity. Qed.
  Lemma mapr_ok A B (f : A -> res B) g l : (forall x, In x l -> f x = Ok (g x)) -> mapr f l = Ok (map g l).
  Proof.
    induction l as [|x r IH]; intros H; simpl; [reflexivity|]. rewrite (H x (or_introl eq_refl)). simpl.
    rewrite IH by (intros; apply H; right; assumption). reflexivity.
  Qed.
  Lemma run_map m F A B (f : nat -> tensor) t c : forall n, (forall k, is_bulk m F A B k (f k)) -> is_last m F A B (n + c) t ->
    run m F A B n (map f (seq n c) ++ [t]).
  Proof.
    induction c as [|c IH]; intros n Hf Ht; simpl.
    - constructor. rewrite Nat.add_0_r in Ht. exact Ht.
    - constructor; [apply Hf|]. apply IH; [exact Hf|]. replace (S n + c) with (n + S c) by lia. exact Ht.
  Qed.
  Lemma last_snoc A (l : list A) (x y d : A) : last (x :: l ++ [y]) d = y.
  Proof. rewrite app_comm_cons. apply last_last. Qed.

  Theorem xxz_ok Jz Jxy Bz N : length Bz = N -> 2 <= N -> N - 1 <= length Jz -> N - 1 <= length Jxy ->
    exists ts, finite_xxz half mone Jz Jxy Bz = Ok ts /\ length ts = N /\
      forall s s', spins N s -> spins N s' -> mpo_entry ts s s' = H_xxz half mone (at_ Jz) (at_ Jxy) (at_ Bz) N s s'.
  Proof.
    intros HN H2 Hz Hx.
    exists (xxz_first half mone (at_ Jz 0) (at_ Jxy 0) (at_ Bz 0) ::
            map (fun n => xxz_bulk half mone (at_ Jz n) (at_ Jxy n) (at_ Bz n)) (seq 1 (N - 2)) ++ [xxz_last half mone (at_ Bz (N - 1))]).
    split; [|split].
    - unfold finite_xxz. rewrite HN. rewrite !read_ok by lia. cbn [rbind].
      rewrite (@mapr_ok _ _ _ (fun n => xxz_bulk half mone (at_ Jz n) (at_ Jxy n) (at_ Bz n))).
      + cbn [rbind finite_mpo]. rewrite last_snoc. reflexivity.
      + intros n Hn. apply in_seq in Hn. rewrite !read_ok by lia. reflexivity.
    - cbn [length]. rewrite app_length, map_length, seq_length. simpl. lia.
    - intros s s' Hs Hs'. rewrite mpo_entry_chain.
      assert (Hr : run 3 (xF (at_ Bz)) (xA (at_ Jz) (at_ Jxy)) xB 1
        (map (fun n => xxz_bulk half mone (at_ Jz n) (at_ Jxy n) (at_ Bz n)) (seq 1 (N - 2)) ++ [xxz_last half mone (at_ Bz (N - 1))])).
      { apply run_map; [intros k; apply xxz_bulk_ok|]. replace (1 + (N - 2)) with (N - 1) by lia. apply xxz_last_ok. }
      assert (L : S (length (map (fun n => xxz_bulk half mone (at_ Jz n) (at_ Jxy n) (at_ Bz n)) (seq 1 (N - 2)) ++ [xxz_last half mone (at_ Bz (N - 1))])) = N).
      { rewrite app_length, map_length, seq_length. simpl. lia. }
      rewrite (@chain_first R 3 _ _ _ _ _ (xxz_first_ok (at_ Jz) (at_ Jxy) (at_ Bz) 0) Hr) by (rewrite L; assumption).
      rewrite L. apply xxz_HH. apply Hs.
  Qed.

  (** ** TFI *)
  Definition tF (Bz : nat -> R) : nat -> op := fun n => mscale (Bz n) (sz mone).
  Definition tA (Jx : nat -> R) : nat -> nat -> op := fun i n => mscale (Jx n) sx.
  Definition tB : nat -> op := fun i => sx.
  Lemma tfi_bulk_ok Jx Bz n : is_bulk 1 (tF Bz) (tA Jx) tB n (tfi_bulk mone (Jx n) (Bz n)).
  Proof.
    split; [reflexivity|]. cbn [Nat.add]. intros l r x y Hl Hr Hx Hy.
    bits; cbv -[car radd rmul r0 r1]; ring.
  Qed.
  Lemma tfi_last_ok Jx Bz n : is_last 1 (tF Bz) (tA Jx) tB n (tfi_last mone (Bz n)).
  Proof.
    split; [reflexivity|]. cbn [Nat.add]. intros l x y Hl Hx Hy.
    bits; cbv -[car radd rmul r0 r1]; ring.
  Qed.
  Lemma tfi_first_ok Jx Bz n : is_first 1 (tF Bz) (tA Jx) tB n (tfi_first mone (Jx n) (Bz n)).
  Proof.
    split; [reflexivity|]. cbn [Nat.add]. intros r x y Hr Hx Hy.
    bits; cbv -[car radd rmul r0 r1]; ring.
  Qed.
  Lemma tfi_HH Jx Bz N s s' : length s = N -> HH 1 (tF Bz) (tA Jx) tB 0 N s s' = H_tfi mone Jx Bz N s s'.
  Proof.
    intros L. unfold HH, H_tfi. f_equal; apply nsum_ext; intros n Hn.
    - unfold nsum at 1. cbn [seq lsum fold_right Nat.add]. unfold tA, tB. rewrite !scale_on2 by lia. ring.
    - unfold tF. cbn [Nat.add]. rewrite scale_on1 by lia. reflexivity.
  Qed.
  Theorem tfi_ok Jx Bz N : length Bz = N -> 2 <= N -> N - 1 <= length Jx ->
    exists ts, finite_tfi mone Jx Bz = Ok ts /\ length ts = N /\
      forall s s', spins N s -> spins N s' -> mpo_entry ts s s' = H_tfi mone (at_ Jx) (at_ Bz) N s s'.
  Proof.
    intros HN H2 Hx. set (mid := map (fun n => tfi_bulk mone (at_ Jx n) (at_ Bz n)) (seq 1 (N - 2)) ++ [tfi_last mone (at_ Bz (N - 1))]).
    exists (tfi_first mone (at_ Jx 0) (at_ Bz 0) :: mid).
    assert (L : S (length mid) = N).
    { unfold mid. rewrite app_length, map_length, seq_length. simpl. lia. }
    split; [|split].
    - unfold finite_tfi. rewrite HN. rewrite !read_ok by lia. cbn [rbind].
      rewrite (@mapr_ok _ _ _ (fun n => tfi_bulk mone (at_ Jx n) (at_ Bz n))).
      + cbn [rbind finite_mpo]. rewrite last_snoc. reflexivity.
      + intros n Hn. apply in_seq in Hn. rewrite !read_ok by lia. reflexivity.
    - exact L.
    - intros s s' Hs Hs'. rewrite mpo_entry_chain.
      assert (Hr : run 1 (tF (at_ Bz)) (tA (at_ Jx)) tB 1 mid).
      { apply run_map; [intros k; apply tfi_bulk_ok|]. replace (1 + (N - 2)) with (N - 1) by lia. apply tfi_last_ok. }
      rewrite (@chain_first R 1 _ _ _ _ _ (tfi_first_ok (at_ Jx) (at_ Bz) 0) Hr) by (rewrite L; assumption).
      rewrite L. apply tfi_HH. apply Hs.
  Qed.
End Main.
