(** * Refuted claims about charges: witnesses of behaviour recorded in DESIGN.md, Findings *)
From Coq Require Import ZArith.
From Verif Require Import Prelude Res Charge ChargeFacts ChargeInst.
Set Implicit Arguments.
Unset Strict Implicit.

(** "fusion of Z_n charges is addition modulo n": the int16 sum wraps before the remainder is taken
    when n > 16384 (charge.py:576-578), and fusion is not even associative *)
Theorem ZN_large_refuted : exists n a b c,
  (2 <= n <= 32767)%Z /\ ok1 (ZN n) a = true /\ ok1 (ZN n) b = true /\ ok1 (ZN n) c = true /\
  fuse1 (ZN n) a b <> ((a + b) mod n)%Z /\
  fuse1 (ZN n) a (fuse1 (ZN n) b c) <> fuse1 (ZN n) (fuse1 (ZN n) a b) c.
Proof.
  exists 20000%Z, 19999%Z, 19999%Z, 1%Z. repeat split; vm_compute; try reflexivity; discriminate.
Qed.
Print Assumptions ZN_large_refuted.

(** "U1 charges are integers": sums outside int16 wrap around, so two charges that are not inverse
    to each other as integers can fuse to the identity *)
Theorem U1_wrap_refuted : exists a b,
  ok1 U1 a = true /\ ok1 U1 b = true /\ (a + b)%Z <> 0%Z /\ fuse1 U1 a b = id1 U1.
Proof. exists (-32768)%Z, (-32768)%Z. repeat split; vm_compute; try reflexivity; discriminate. Qed.
Print Assumptions U1_wrap_refuted.

(** "equality compares the represented charges": two labelled objects with the same charges are
    different when their unique charges are stored in different orders (charge.py:653-659); this
    happens after taking duals *)
Theorem charge_equal_refuted : exists c d : bc Z_chg,
  bc_ok c /\ bc_ok d /\ rep c = rep d /\ charge_equal c d = false /\
  c = dual (Lab [1; 2]%Z [0; 1]) true /\ d = Lab (uniques (Raw [-1; -2]%Z)) (labels (Raw [-1; -2]%Z)).
Proof.
  eexists. eexists. split; [|split; [|split; [|split; [|split; reflexivity]]]]; try (vm_compute; reflexivity).
  - split; [repeat constructor; cbn; intuition discriminate|].
    intros i. cbn. split; [intros [<-|[<-|[]]]; lia | destruct i as [|[|i]]; auto; lia].
  - split; [repeat constructor; cbn; intuition discriminate|].
    intros i. cbn. split; [intros [<-|[<-|[]]]; lia | destruct i as [|[|i]]; auto; lia].
Qed.
Print Assumptions charge_equal_refuted.

(** "unique charges and counts of any labelled object agree": the counts have one entry per used
    label, the charges one per stored value (charge.py:380-400); objects with unused values only
    arise when a caller passes them to the constructor *)
Theorem unused_uniques_refuted : exists c : bc Z_chg,
  let '(u, _, cnt) := bunique c in length (rep u) <> length cnt.
Proof. exists (Lab [1; 2]%Z [1; 1]). vm_compute. discriminate. Qed.
Print Assumptions unused_uniques_refuted.

(** and [reduce] on such an object can index out of range (charge.py:440-443) *)
Theorem reduce_unused_refuted : exists (c : bc Z_chg) t,
  (forall i, In i (labels c) -> i < length (uniques c)) /\ breduce c [t] 1 = Raise.
Proof. exists (Lab [1; 2; 3]%Z [0]), 3%Z. split; [|vm_compute; reflexivity]. intros i [<-|[]]. cbn. lia. Qed.
Print Assumptions reduce_unused_refuted.
