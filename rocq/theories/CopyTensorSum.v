(** * CopyTensorSum: sums against a generalised delta; the einsum expression of contract_copy_node *)
From Verif Require Import Prelude Algebra Tensor TensorFacts Einsum EinsumFacts NetworkFacts Graph GraphBase GraphContract CopyTensor CopyTensorSpec.
Set Implicit Arguments.
Unset Strict Implicit.
Local Open Scope csr_scope.

Lemma alleq_spec l : alleq l = true <-> forall x y, In x l -> In y l -> x = y.
Proof.
  destruct l as [|x r]; [split; [intros _ ? ? [] | reflexivity]|]. cbn [alleq]. rewrite forallb_forall. split.
  - intros H. assert (forall y, In y (x :: r) -> x = y) as K by (intros y [->|Hy]; [reflexivity | apply Nat.eqb_eq, H, Hy]).
    intros y z Hy Hz. rewrite <- (K y Hy), <- (K z Hz). reflexivity.
  - intros H y Hy. apply Nat.eqb_eq, H; [left; reflexivity | right; exact Hy].
Qed.

Lemma map_repeat (d : nat) (l : list nat) : map (fun _ => d) l = repeat d (length l).
Proof. induction l as [|x l IH]; [reflexivity|]. cbn. rewrite IH. reflexivity. Qed.

Section Sum.
  Context {R : csr}.
  Add Ring Rring : (rsr R).

  Lemma sum_alleq d n (h : list nat -> R) : lsum (idxs (repeat d (S n))) (fun v => if alleq v then h v else r0) = nsum d (fun x => h (repeat x (S n))).
  Proof.
    cbn [repeat]. rewrite lsum_idxs_cons. apply nsum_ext. intros x Hx.
    assert (forall m (g : list nat -> R), lsum (idxs (repeat d m)) (fun v => if forallb (Nat.eqb x) v then g v else r0) = g (repeat x m)) as K.
    { induction m as [|m IH]; intros g; [cbn; ring|]. cbn [repeat]. rewrite lsum_idxs_cons.
      rewrite (@nsum_single R d _ x); [|exact Hx|].
      - cbn [forallb]. rewrite Nat.eqb_refl. cbn [andb]. apply (IH (fun v => g (x :: v))).
      - intros j Hj Hne. apply lsum_zero. intros v _. cbn [forallb]. destruct (Nat.eqb_spec x j); [congruence | reflexivity]. }
    cbn [alleq]. apply (K n (fun v => h (x :: v))).
  Qed.

  (** summing the labels [C] of a copy tensor: all of them take the same value *)
  Lemma esum_delta (dim : nat -> nat) d (C es : list nat) (g : asg nat -> R) (a : asg nat) : ext g -> NoDup C -> C <> [] ->
    (forall x, In x C <-> In x es) -> (forall x, In x C -> dim x = d) ->
    esum Nat.eq_dec dim C (fun b => (if alleq (map b es) then r1 else r0) *! g b) a = nsum d (fun v => g (fun x => if mem x C then v else a x)).
  Proof.
    intros Hg Hn Hne He Hd. rewrite esum_idxs.
    assert (map dim C = repeat d (S (pred (length C)))) as ->.
    { rewrite (map_ext_in _ (fun _ => d)) by exact Hd. rewrite map_repeat. destruct C; [congruence | reflexivity]. }
    transitivity (lsum (idxs (repeat d (S (pred (length C))))) (fun vs => if alleq vs then g (binds Nat.eq_dec a C vs) else r0)).
    - apply lsum_ext. intros vs Hvs. apply In_idxs in Hvs.
      assert (length vs = length C) as Hl. { apply valid_length in Hvs. rewrite repeat_length in Hvs. destruct C; [congruence|exact Hvs]. }
      assert (alleq (map (binds Nat.eq_dec a C vs) es) = alleq vs) as ->.
      { transitivity (alleq (map (binds Nat.eq_dec a C vs) C)); [|rewrite (map_binds Nat.eq_dec a _ Hn Hl); reflexivity].
        apply Bool.eq_true_iff_eq. rewrite !alleq_spec.
        split; intros H x y Hx Hy; apply H; apply in_map_iff in Hx, Hy; destruct Hx as (i & <- & Hi), Hy as (j & <- & Hj); apply in_map; apply He; assumption. }
      destruct (alleq vs); ring.
    - rewrite sum_alleq. apply nsum_ext. intros v Hv. apply Hg. intros x.
      destruct (mem x C) eqn:Mx.
      + apply mem_In in Mx. assert (length (repeat v (S (pred (length C)))) = length C) as Hl by (rewrite repeat_length; destruct C; [congruence|reflexivity]).
        pose proof (map_binds Nat.eq_dec a _ Hn Hl) as E.
        assert (In (binds Nat.eq_dec a C (repeat v (S (pred (length C)))) x) (repeat v (S (pred (length C))))) as K by (rewrite <- E at 2; apply in_map; exact Mx).
        apply repeat_spec in K. exact K.
      + apply mem_nIn in Mx. apply binds_other. exact Mx.
  Qed.

  (** ** the expression *)
  Definition free_at (shared : list nat) (j : nat) : bool := negb (mem j shared).
  Lemma input_term_eq shared axis k next : input_term shared axis k next =
    (map (fun j => if mem j shared then 0 else next + length (filter (free_at shared) (seq axis (j - axis)))) (seq axis k),
     next + length (filter (free_at shared) (seq axis k))).
  Proof.
    revert axis next. induction k as [|k IH]; intros axis next; [cbn; f_equal; lia|].
    assert (forall j, In j (seq (S axis) k) -> seq axis (j - axis) = axis :: seq (S axis) (j - S axis)) as K.
    { intros j Hj. apply in_seq in Hj. replace (j - axis) with (S (j - S axis)) by lia. reflexivity. }
    assert (free_at shared axis = negb (mem axis shared)) as F by reflexivity.
    cbn [input_term seq map filter]. rewrite Nat.sub_diag. cbn [seq filter length]. rewrite F.
    destruct (mem axis shared) eqn:Ma; rewrite IH; cbn [fst snd negb]; f_equal.
    - f_equal. apply map_ext_in. intros j Hj. rewrite (K j Hj). cbn [filter]. rewrite F. reflexivity.
    - rewrite Nat.add_0_r. f_equal. apply map_ext_in. intros j Hj. rewrite (K j Hj). cbn [filter]. rewrite F. cbn [negb length].
      destruct (mem j shared); [reflexivity|lia].
    - cbn [length]. lia.
  Qed.
  Lemma input_term_0 shared k next : input_term shared 0 k next =
    (map (fun j => if mem j shared then 0 else next + kpos (free_at shared) j) (seq 0 k), next + length (filter (free_at shared) (seq 0 k))).
  Proof. rewrite input_term_eq. f_equal. apply map_ext. intros j. rewrite Nat.sub_0_r. reflexivity. Qed.
End Sum.
