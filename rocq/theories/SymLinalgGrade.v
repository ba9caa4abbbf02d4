(** * SymLinalgGrade: matrices whose rows and columns carry charges *)
From Coq Require Import Permutation List Lia Arith.
From Verif Require Import Prelude Algebra Tensor TensorFacts Res Charge ChargeFacts BlockSparse BlockSpec BstSpec ListFacts BlockFacts BlockReduce BlockMaps BlockTr BlockPart BstFacts BstConv BstDot BstTensordot.
Import ListNotations.
Set Implicit Arguments.
Unset Strict Implicit.

Section Grade.
  Context {G : chg}.
  (** positions with a charge; [gloc] is the rank within the charge, [gsz] the number of positions of a charge,
      [gemb] the position of a rank *)
  Record grading := Grad { gn : nat; gch : nat -> G; gloc : nat -> nat; gsz : G -> nat; gemb : G -> nat -> nat }.
  Definition gok (A : grading) : Prop :=
    (forall i, i < gn A -> gloc A i < gsz A (gch A i) /\ gemb A (gch A i) (gloc A i) = i) /\
    (forall q a, a < gsz A q -> gemb A q a < gn A /\ gch A (gemb A q a) = q /\ gloc A (gemb A q a) = a).

  Lemma gok_positions A q : gok A ->
    Permutation (filter (fun i => if qdec (gch A i) q then true else false) (seq 0 (gn A))) (map (gemb A q) (seq 0 (gsz A q))).
  Proof.
    intros [H1 H2]. apply NoDup_Permutation.
    - apply NoDup_filter, seq_NoDup.
    - apply Prelude.NoDup_map_in; [|apply seq_NoDup]. intros a b Ha Hb E. apply in_seq in Ha, Hb.
      destruct (H2 q a ltac:(lia)) as (_ & _ & <-). destruct (H2 q b ltac:(lia)) as (_ & _ & <-). rewrite E. reflexivity.
    - intros i. rewrite filter_In, in_map_iff, in_seq. split.
      + intros [Hi E]. destruct (qdec (gch A i) q) as [<-|]; [|discriminate]. destruct (H1 i ltac:(lia)) as [E1 E2]. exists (gloc A i). split; [exact E2|]. apply in_seq. lia.
      + intros (a & <- & Ha). apply in_seq in Ha. destruct (H2 q a ltac:(lia)) as (E1 & E2 & _). split; [lia|]. rewrite E2. destruct (qdec q q); congruence.
  Qed.

  Lemma gn_le A B : gok A -> gok B -> (forall q, gsz A q <= gsz B q) -> gn A <= gn B.
  Proof.
    intros [A1 A2] [B1 B2] H. rewrite <- (seq_length (gn A) 0), <- (seq_length (gn B) 0), <- (map_length (fun i => gemb B (gch A i) (gloc A i)) (seq 0 (gn A))).
    assert (forall i, i < gn A -> gloc A i < gsz B (gch A i)) as HL by (intros i Hi; destruct (A1 i Hi); specialize (H (gch A i)); lia).
    apply NoDup_incl_length.
    - apply Prelude.NoDup_map_in; [|apply seq_NoDup]. intros i j Hi Hj E. apply in_seq in Hi, Hj.
      destruct (A1 i ltac:(lia)) as [_ <-]. destruct (A1 j ltac:(lia)) as [_ <-].
      destruct (B2 _ _ (HL i ltac:(lia))) as (_ & C1 & L1). destruct (B2 _ _ (HL j ltac:(lia))) as (_ & C2 & L2). rewrite E in C1, L1. congruence.
    - intros x Hx. apply in_map_iff in Hx as (i & <- & Hi). apply in_seq in Hi. apply in_seq. destruct (B2 _ _ (HL i ltac:(lia))) as (Hb & _). lia.
  Qed.

  Context {K : csr}.
  Add Ring KringG : (rsr K).
  Lemma nsum_grade A q (F : nat -> K) : gok A -> (forall i, i < gn A -> gch A i <> q -> F i = r0) ->
    nsum (gn A) F = nsum (gsz A q) (fun a => F (gemb A q a)).
  Proof.
    intros HA HF. unfold nsum. rewrite <- (lsum_map (gemb A q) (seq 0 (gsz A q)) F). rewrite <- (lsum_perm F (gok_positions q HA)), lsum_filter.
    apply lsum_ext. intros i Hi. apply in_seq in Hi. destruct (qdec (gch A i) q) as [E|E]; [reflexivity|]. apply HF; [lia | exact E].
  Qed.

  (** the matrix X connects equal charges only, with entries Xb q within charge q *)
  Definition graded (X : nat -> nat -> K) (A B : grading) (Xb : G -> nat -> nat -> K) : Prop :=
    forall i j, i < gn A -> j < gn B -> X i j = if qdec (gch A i) (gch B j) then Xb (gch A i) (gloc A i) (gloc B j) else r0.

  Lemma graded_at X A B Xb q a b : gok A -> gok B -> graded X A B Xb -> a < gsz A q -> b < gsz B q -> X (gemb A q a) (gemb B q b) = Xb q a b.
  Proof.
    intros [_ HA] [_ HB] H Ha Hb. destruct (HA q a Ha) as (A1 & A2 & A3). destruct (HB q b Hb) as (B1 & B2 & B3).
    rewrite H by assumption. rewrite A2, B2, A3, B3. destruct (qdec q q); congruence.
  Qed.
  Lemma graded_eq X Y A B Xb Yb i j : gok A -> gok B -> graded X A B Xb -> graded Y A B Yb ->
    (forall q a b, a < gsz A q -> b < gsz B q -> Xb q a b = Yb q a b) -> i < gn A -> j < gn B -> X i j = Y i j.
  Proof.
    intros [HA _] [HB _] HX HY E Hi Hj. rewrite HX, HY by assumption. destruct (qdec (gch A i) (gch B j)) as [Eq|_]; [|reflexivity].
    apply E; [apply HA, Hi | rewrite Eq; apply HB, Hj].
  Qed.
  Lemma graded_ext X Y A B Xb : (forall i j, i < gn A -> j < gn B -> X i j = Y i j) -> graded X A B Xb -> graded Y A B Xb.
  Proof. intros E H i j Hi Hj. rewrite <- E by assumption. apply H; assumption. Qed.
  Lemma graded_mul X Y A B C Xb Yb : gok A -> gok B -> gok C -> graded X A B Xb -> graded Y B C Yb ->
    graded (fun i k => nsum (gn B) (fun j => X i j *! Y j k)) A C (fun q a c => nsum (gsz B q) (fun b => Xb q a b *! Yb q b c)).
  Proof.
    intros HA HB HC HX HY i k Hi Hk. destruct (qdec (gch A i) (gch C k)) as [E|E].
    - rewrite (@nsum_grade B (gch A i)); [|exact HB|].
      + apply nsum_ext. intros b Hb. destruct (proj2 HB _ _ Hb) as (B1 & B2 & B3). rewrite HX, HY by assumption.
        rewrite B2, B3. destruct (qdec (gch A i) (gch A i)) as [_|]; [|congruence]. destruct (qdec (gch A i) (gch C k)); congruence.
      + intros j Hj N. rewrite HX by assumption. destruct (qdec (gch A i) (gch B j)) as [E'|_]; [congruence|]. ring.
    - apply nsum_zero. intros j Hj. rewrite HX, HY by assumption. destruct (qdec (gch A i) (gch B j)) as [E1|_]; [|ring].
      destruct (qdec (gch B j) (gch C k)) as [E2|_]; [congruence|ring].
  Qed.
  Lemma graded_tr X A B Xb : graded X A B Xb -> graded (fun j i => X i j) B A (fun q b a => Xb q a b).
  Proof.
    intros H j i Hj Hi. rewrite H by assumption. destruct (qdec (gch A i) (gch B j)) as [E|E]; destruct (qdec (gch B j) (gch A i)) as [E'|E']; try congruence.
  Qed.
  Lemma graded_map (f : K -> K) X A B Xb : f r0 = r0 -> graded X A B Xb -> graded (fun i j => f (X i j)) A B (fun q a b => f (Xb q a b)).
  Proof. intros F H i j Hi Hj. rewrite H by assumption. destruct (qdec _ _); [reflexivity | exact F]. Qed.
  Lemma graded_diag A (v : nat -> K) : gok A -> graded (fun i j => if i =? j then v i else r0) A A (fun q a b => if a =? b then v (gemb A q a) else r0).
  Proof.
    intros [H1 H2] i j Hi Hj. destruct (H1 i Hi) as [_ Ei]. destruct (H1 j Hj) as [_ Ej]. destruct (qdec (gch A i) (gch A j)) as [E|E].
    - destruct (Nat.eqb_spec i j) as [->|N]; [rewrite Nat.eqb_refl, Ej; reflexivity|].
      destruct (Nat.eqb_spec (gloc A i) (gloc A j)) as [E'|_]; [|reflexivity]. exfalso. apply N. rewrite <- Ei, <- Ej, E, E'. reflexivity.
    - destruct (Nat.eqb_spec i j) as [->|_]; [congruence|reflexivity].
  Qed.

  (** ** gradings *)
  (** the positions of a group of legs *)
  Definition legG (L : list (leg G)) : grading :=
    Grad (nprod (ldims L)) (fun i => charge_of L (unravel (ldims L) i))
      (fun i => index_of ixdec (unravel (ldims L) i) (sector L (charge_of L (unravel (ldims L) i))))
      (fun q => length (sector L q)) (fun q a => ravel (ldims L) (nth a (sector L q) [])).
  Lemma legG_ok L : gok (legG L).
  Proof.
    split; cbn [legG gn gch gloc gsz gemb].
    - intros i Hi. pose proof (@unravel_valid (ldims L) i Hi) as V. assert (In (unravel (ldims L) i) (sector L (charge_of L (unravel (ldims L) i)))) as I by (apply In_sector; auto).
      split; [apply index_of_lt, I|]. rewrite nth_index_of by exact I. apply ravel_unravel, Hi.
    - intros q a Ha. assert (In (nth a (sector L q) []) (sector L q)) as I by (apply nth_In, Ha). pose proof (proj1 (In_sector _ _ _) I) as [V E].
      split; [apply ravel_lt, V|]. rewrite unravel_ravel by exact V. split; [exact E|]. rewrite E. apply index_of_nth; [apply NoDup_sector | exact Ha].
  Qed.
  Lemma flip_flip (L : list (leg G)) : map flip (map flip L) = L.
  Proof. rewrite map_map. rewrite <- (map_id L) at 2. apply map_ext. intros [l f]. unfold flip. cbn. rewrite Bool.negb_involutive. reflexivity. Qed.
  Lemma qinv_eq_iff (x y : G) : qinv x = qinv y <-> x = y.
  Proof. split; [|congruence]. intros E. rewrite <- (qinv_inv x), <- (qinv_inv y), E. reflexivity. Qed.
  Lemma graded_flip X L C Xb : graded X (legG (map flip L)) (legG (map flip C)) Xb <-> graded X (legG L) (legG C) (fun q => Xb (qinv q)).
  Proof.
    split; intros H i j Hi Hj.
    - assert (ldims (map flip L) = ldims L) as EL by apply ldims_flip. assert (ldims (map flip C) = ldims C) as EC by apply ldims_flip.
      specialize (H i j). cbn [legG gn gch gloc] in *. rewrite EL, EC in H. rewrite H by assumption. rewrite !charge_of_flip, !sector_flip, !qinv_inv.
      destruct (qdec (qinv _) (qinv _)) as [E|E]; destruct (qdec (charge_of L (unravel (ldims L) i)) (charge_of C (unravel (ldims C) j))) as [E'|E']; try reflexivity; exfalso.
      + apply E'. apply qinv_eq_iff. exact E.
      + apply E. congruence.
    - assert (ldims (map flip L) = ldims L) as EL by apply ldims_flip. assert (ldims (map flip C) = ldims C) as EC by apply ldims_flip.
      cbn [legG gn gch gloc] in *. rewrite EL in *. rewrite EC in *. rewrite H by assumption. cbn [legG gn gch gloc]. rewrite !charge_of_flip, !sector_flip, !qinv_inv.
      destruct (qdec (qinv _) (qinv _)) as [E|E]; destruct (qdec (charge_of L (unravel (ldims L) i)) (charge_of C (unravel (ldims C) j))) as [E'|E']; try reflexivity; exfalso.
      + apply E'. apply qinv_eq_iff. exact E.
      + apply E. congruence.
  Qed.
End Grade.
