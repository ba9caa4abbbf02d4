(** * MpsInfAlg: matrices as functions, and the algebra of the canonical form of an infinite state *)
From Coq Require Import List Lia Morphisms Setoid Arith.
From Verif Require Import Prelude Algebra MpsState.
Import ListNotations.
Set Implicit Arguments.
Unset Strict Implicit.
Local Open Scope nat_scope.
Local Open Scope csr_scope.

Section Mat.
  Context {R : cjr}.
  Add Ring Rring : (rsr R).
  Notation mx := (nat -> nat -> R).
  Definition eqm (p q : nat) (A B : mx) : Prop := forall i j, i < p -> j < q -> A i j = B i j.
  Definition mm (n : nat) (A B : mx) : mx := fun i j => nsum n (fun l => A i l *! B l j).
  Definition tr (A : mx) : mx := fun i j => A j i.
  Definition bar (A : mx) : mx := fun i j => cj (A i j).
  Definition adj (A : mx) : mx := fun i j => cj (A j i).
  Definition idm : mx := fun i j => if i =? j then r1 else r0.
  Definition dg (s : nat -> R) : mx := fun i j => if i =? j then s i else r0.
  Definition scm (k : R) (A : mx) : mx := fun i j => k *! A i j.
  Definition msum {X} (l : list X) (F : X -> mx) : mx := fun i j => lsum l (fun x => F x i j).

  Global Instance eqm_equiv p q : Equivalence (eqm p q).
  Proof.
    split; [intros A i j _ _; reflexivity | intros A B H i j Hi Hj; symmetry; apply H; assumption |].
    intros A B C H H' i j Hi Hj. rewrite H by assumption. apply H'; assumption.
  Qed.
  Global Instance mm_proper p n q : Proper (eqm p n ==> eqm n q ==> eqm p q) (mm n).
  Proof. intros A A' HA B B' HB i j Hi Hj. apply nsum_ext. intros l Hl. rewrite HA, HB by assumption. reflexivity. Qed.
  Global Instance tr_proper p q : Proper (eqm p q ==> eqm q p) tr.
  Proof. intros A A' HA i j Hi Hj. apply HA; assumption. Qed.
  Global Instance bar_proper p q : Proper (eqm p q ==> eqm p q) bar.
  Proof. intros A A' HA i j Hi Hj. unfold bar. rewrite HA by assumption. reflexivity. Qed.
  Global Instance adj_proper p q : Proper (eqm p q ==> eqm q p) adj.
  Proof. intros A A' HA i j Hi Hj. unfold adj. rewrite HA by assumption. reflexivity. Qed.
  Global Instance scm_proper p q k : Proper (eqm p q ==> eqm p q) (scm k).
  Proof. intros A A' HA i j Hi Hj. unfold scm. rewrite HA by assumption. reflexivity. Qed.

  Lemma msum_eqm X (l : list X) F G p q : (forall x, In x l -> eqm p q (F x) (G x)) -> eqm p q (msum l F) (msum l G).
  Proof. intros H i j Hi Hj. apply lsum_ext. intros x Hx. apply H; assumption. Qed.
  Lemma mm_assoc p n k q A B C : eqm p q (mm k (mm n A B) C) (mm n A (mm k B C)).
  Proof.
    intros i j _ _. unfold mm. transitivity (nsum k (fun l => nsum n (fun m => A i m *! B m l *! C l j))).
    - apply nsum_ext. intros l _. rewrite nsum_mul_r. reflexivity.
    - rewrite nsum_swap. apply nsum_ext. intros m _. rewrite <- nsum_mul_l. apply nsum_ext. intros l _. ring.
  Qed.
  Lemma mm_id_l p q A : eqm p q (mm p idm A) A.
  Proof. intros i j Hi _. unfold mm, idm. apply (nsum_delta_l (fun c => A c j) Hi). Qed.
  Lemma mm_id_r p q A : eqm p q (mm q A idm) A.
  Proof. intros i j _ Hj. unfold mm, idm. apply (nsum_delta_r (fun c => A i c) Hj). Qed.
  Lemma adj_mm p n q A B : eqm q p (adj (mm n A B)) (mm n (adj B) (adj A)).
  Proof. intros i j _ _. unfold adj, mm. rewrite cj_nsum. apply nsum_ext. intros l _. rewrite cj_mul. ring. Qed.
  Lemma bar_mm p n q A B : eqm p q (bar (mm n A B)) (mm n (bar A) (bar B)).
  Proof. intros i j _ _. unfold bar, mm. rewrite cj_nsum. apply nsum_ext. intros l _. apply cj_mul. Qed.
  Lemma tr_mm p n q A B : eqm q p (tr (mm n A B)) (mm n (tr B) (tr A)).
  Proof. intros i j _ _. unfold tr, mm. apply nsum_ext. intros l _. ring. Qed.
  Lemma adj_adj p q A : eqm p q (adj (adj A)) A.
  Proof. intros i j _ _. unfold adj. apply cj_inv. Qed.
  Lemma bar_idm p q : eqm p q (bar idm) idm.
  Proof. intros i j _ _. unfold bar, idm. destruct (i =? j); [apply cj_1 | apply cj_0]. Qed.
  Lemma mm_msum_l X (l : list X) F n p q A : eqm p q (mm n A (msum l F)) (msum l (fun x => mm n A (F x))).
  Proof.
    intros i j _ _. unfold mm, msum. transitivity (nsum n (fun c => lsum l (fun x => A i c *! F x c j))).
    - apply nsum_ext. intros c _. rewrite <- lsum_mul_l. reflexivity.
    - unfold nsum. apply lsum_swap.
  Qed.
  Lemma mm_msum_r X (l : list X) F n p q A : eqm p q (mm n (msum l F) A) (msum l (fun x => mm n (F x) A)).
  Proof.
    intros i j _ _. unfold mm, msum. transitivity (nsum n (fun c => lsum l (fun x => F x i c *! A c j))).
    - apply nsum_ext. intros c _. rewrite lsum_mul_r. reflexivity.
    - unfold nsum. apply lsum_swap.
  Qed.
  Lemma mm_scm_l p n q k A B : eqm p q (mm n (scm k A) B) (scm k (mm n A B)).
  Proof. intros i j _ _. unfold mm, scm. rewrite <- nsum_mul_l. apply nsum_ext. intros l _. ring. Qed.
  Lemma mm_scm_r p n q k A B : eqm p q (mm n A (scm k B)) (scm k (mm n A B)).
  Proof. intros i j _ _. unfold mm, scm. rewrite <- nsum_mul_l. apply nsum_ext. intros l _. ring. Qed.

  Section Canon.
    Variables (D k : nat).
    Variables Sl Il Sr Ir U V Lam : mx.
    Hypothesis Hl : eqm D D (mm D Il Sl) idm.
    Hypothesis Hl' : eqm D D (mm D Sl Il) idm.
    Hypothesis Hr : eqm D D (mm D Ir Sr) idm.
    Hypothesis Hr' : eqm D D (mm D Sr Ir) idm.
    Hypothesis Hs : eqm D D (mm k U (mm k Lam V)) (mm D Sl Sr).
    Hypothesis HU : eqm k k (mm D (adj U) U) idm.
    Hypothesis HV : eqm k k (mm D V (adj V)) idm.

    Definition bX := mm D Il U.
    Definition bY := mm k Lam (mm D V Ir).
    Definition bZ := mm k bX Lam.

    Lemma XY : eqm D D (mm k bX bY) idm.
    Proof.
      unfold bX, bY. rewrite (@mm_assoc D D k D Il U).
      rewrite <- (@mm_assoc k k D D Lam V Ir). rewrite <- (@mm_assoc D k D D U (mm k Lam V) Ir). rewrite Hs.
      rewrite (@mm_assoc D D D D Sl Sr Ir), Hr', mm_id_r. exact Hl.
    Qed.
    Lemma U_unitary : eqm D D (mm k U (adj U)) idm.
    Proof.
      set (W := mm D (mm k Lam (mm D V Ir)) Il).
      assert (eqm D D (mm k U W) idm) as UW.
      { unfold W. rewrite <- (@mm_assoc D k D D U). rewrite <- (@mm_assoc k k D D Lam V Ir). rewrite <- (@mm_assoc D k D D U (mm k Lam V) Ir), Hs.
        rewrite (@mm_assoc D D D D Sl Sr Ir), Hr', mm_id_r. exact Hl'. }
      assert (eqm k D (adj U) W) as E.
      { transitivity (mm D (adj U) (mm k U W)); [rewrite UW; symmetry; apply mm_id_r|].
        rewrite <- (@mm_assoc k D k D (adj U) U W), HU. apply mm_id_l. }
      rewrite E. exact UW.
    Qed.
    Lemma V_unitary : eqm D D (mm k (adj V) V) idm.
    Proof.
      set (W := mm D Ir (mm D Il (mm k U Lam))).
      assert (eqm D D (mm k W V) idm) as WV.
      { unfold W. rewrite (@mm_assoc D D k D Ir). rewrite (@mm_assoc D D k D Il). rewrite (@mm_assoc D k k D U Lam V), Hs.
        rewrite <- (@mm_assoc D D D D Il Sl Sr), Hl, mm_id_l. exact Hr. }
      assert (eqm D k (adj V) W) as E.
      { transitivity (mm D (mm k W V) (adj V)); [rewrite WV; symmetry; apply mm_id_l|].
        rewrite (@mm_assoc D k D k W V (adj V)), HV. apply mm_id_r. }
      rewrite E. exact WV.
    Qed.
    Lemma Y_alt : eqm k D bY (mm D (adj U) Sl).
    Proof.
      symmetry. transitivity (mm D (adj U) (mm D Sl (mm D Sr Ir))); [rewrite Hr', mm_id_r; reflexivity|].
      rewrite <- (@mm_assoc D D D D Sl Sr Ir), <- Hs. rewrite (@mm_assoc D k D D U), <- (@mm_assoc k D k D (adj U) U), HU, mm_id_l.
      unfold bY. apply mm_assoc.
    Qed.
    Lemma Z_alt : eqm D k bZ (mm D Sr (adj V)).
    Proof.
      unfold bZ, bX. transitivity (mm k (mm k (mm D Il U) Lam) (mm D V (adj V))); [rewrite HV, mm_id_r; reflexivity|].
      rewrite <- (@mm_assoc D k D k _ V (adj V)).
      rewrite (@mm_assoc D D k k Il U Lam), (@mm_assoc D D k D Il (mm k U Lam) V), (@mm_assoc D k k D U Lam V), Hs.
      rewrite <- (@mm_assoc D D D D Il Sl Sr), Hl, mm_id_l. reflexivity.
    Qed.
    Lemma SlX : eqm D k (mm D Sl bX) U.
    Proof. unfold bX. rewrite <- (@mm_assoc D D D k Sl Il U), Hl', mm_id_l. reflexivity. Qed.
    Lemma VIrSr : eqm k D (mm D (mm D V Ir) Sr) V.
    Proof. rewrite (@mm_assoc k D D D V Ir Sr), Hr, mm_id_r. reflexivity. Qed.

    Definition Lm := mm D (tr Sl) (bar Sl).
    Definition Rm := mm D Sr (adj Sr).
    Lemma YY : eqm D D (mm k (tr bY) (bar bY)) Lm.
    Proof.
      rewrite Y_alt. rewrite (@tr_mm k D D (adj U) Sl), (@bar_mm k D D (adj U) Sl). unfold Lm.
      rewrite (@mm_assoc D D k D (tr Sl)). rewrite <- (@mm_assoc D k D D (tr (adj U)) (bar (adj U))).
      assert (eqm D D (mm k (tr (adj U)) (bar (adj U))) idm) as E.
      { rewrite <- (@bar_idm D D), <- U_unitary, (@bar_mm D k D). intros i j _ _. reflexivity. }
      rewrite E, mm_id_l. reflexivity.
    Qed.
    Lemma ZZ : eqm D D (mm k bZ (adj bZ)) Rm.
    Proof.
      rewrite Z_alt. rewrite (@adj_mm D D k Sr (adj V)), (@adj_adj k D V). unfold Rm.
      rewrite (@mm_assoc D D k D Sr (adj V)), <- (@mm_assoc D k D D (adj V) V), V_unitary, mm_id_l. reflexivity.
    Qed.

    Section Grams.
      Context {I : Type}.
      Variable ss : list I.
      Variable M : I -> mx.
      Definition bP sg := mm D bY (mm D (M sg) bX).
      Definition bQ sg := mm D (mm D V Ir) (mm D (M sg) bZ).
      Lemma left_gram eta : eqm D D (msum ss (fun sg => mm D (tr (M sg)) (mm D Lm (bar (M sg))))) (scm eta Lm) ->
        eqm k k (msum ss (fun sg => mm k (tr (bP sg)) (bar (bP sg)))) (scm eta idm).
      Proof.
        intros F. transitivity (mm D (tr bX) (mm D (msum ss (fun sg => mm D (tr (M sg)) (mm D Lm (bar (M sg))))) (bar bX))).
        - rewrite (@mm_msum_r I ss _ D D k (bar bX)), (@mm_msum_l I ss _ D k k (tr bX)). apply msum_eqm. intros sg _. unfold bP.
          rewrite (@tr_mm k D k bY), (@bar_mm k D k bY), (@tr_mm D D k (M sg) bX), (@bar_mm D D k (M sg) bX).
          rewrite (@mm_assoc k D k k _ (tr bY)), <- (@mm_assoc D k D k (tr bY) (bar bY)), YY.
          rewrite (@mm_assoc k D D k (tr bX)). rewrite (@mm_assoc D D D k (tr (M sg)) (mm D Lm (bar (M sg))) (bar bX)).
          rewrite (@mm_assoc D D D k Lm (bar (M sg)) (bar bX)). reflexivity.
        - rewrite F, (@mm_scm_l D D k), (@mm_scm_r k D k). unfold Lm. rewrite (@mm_assoc D D D k (tr Sl) (bar Sl) (bar bX)).
          rewrite <- (@mm_assoc k D D k (tr bX) (tr Sl)), <- (@tr_mm D D k Sl bX), <- (@bar_mm D D k Sl bX), SlX.
          assert (eqm k k (mm D (tr U) (bar U)) idm) as E.
          { rewrite <- (@bar_idm k k), <- HU, (@bar_mm k D k). intros i j _ _. unfold mm, tr, bar, adj. apply nsum_ext. intros l _. rewrite cj_inv. reflexivity. }
          rewrite E. reflexivity.
      Qed.
      Lemma right_gram eta : eqm D D (msum ss (fun sg => mm D (M sg) (mm D Rm (adj (M sg))))) (scm eta Rm) ->
        eqm k k (msum ss (fun sg => mm k (bQ sg) (adj (bQ sg)))) (scm eta idm).
      Proof.
        intros F. set (A := mm D V Ir). transitivity (mm D A (mm D (msum ss (fun sg => mm D (M sg) (mm D Rm (adj (M sg))))) (adj A))).
        - rewrite (@mm_msum_r I ss _ D D k (adj A)), (@mm_msum_l I ss _ D k k A). apply msum_eqm. intros sg _. unfold bQ. fold A.
          rewrite (@adj_mm k D k A), (@adj_mm D D k (M sg) bZ).
          rewrite (@mm_assoc k D k k A). rewrite (@mm_assoc D D k k (M sg) bZ).
          rewrite <- (@mm_assoc D k D k bZ). rewrite <- (@mm_assoc D k D D bZ (adj bZ) (adj (M sg))), ZZ.
          rewrite (@mm_assoc D D D k (M sg) (mm D Rm (adj (M sg))) (adj A)). reflexivity.
        - rewrite F, (@mm_scm_l D D k), (@mm_scm_r k D k). unfold Rm. rewrite (@mm_assoc D D D k Sr (adj Sr) (adj A)).
          rewrite <- (@mm_assoc k D D k A Sr), <- (@adj_mm k D D A Sr). unfold A. rewrite VIrSr. rewrite HV. reflexivity.
      Qed.
    End Grams.
  End Canon.
End Mat.
