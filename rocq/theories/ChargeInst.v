(** * ChargeInst: concrete charge groups, used by the examples *)
From Coq Require Import ZArith.
From Verif Require Import Prelude Res Charge ChargeFacts.
Set Implicit Arguments.
Unset Strict Implicit.

(** lexicographic order on rows of integers *)
Fixpoint lexleb (a b : list Z) : bool :=
  match a, b with
  | [], _ => true
  | _ :: _, [] => false
  | x :: a', y :: b' => (x <? y)%Z || ((x =? y)%Z && lexleb a' b')
  end.
Lemma lexleb_total a b : lexleb a b = true \/ lexleb b a = true.
Proof.
  revert b. induction a as [|x a IH]; intros [|y b]; cbn; auto.
  destruct (Z.ltb_spec x y), (Z.ltb_spec y x); cbn; auto.
  assert (x = y) as -> by lia. rewrite Z.eqb_refl. cbn. apply IH.
Qed.
Lemma lexleb_trans a b c : lexleb a b = true -> lexleb b c = true -> lexleb a c = true.
Proof.
  revert b c. induction a as [|x a IH]; intros [|y b] [|z c]; cbn; auto; try discriminate.
  rewrite !Bool.orb_true_iff, !Bool.andb_true_iff, !Z.ltb_lt, !Z.eqb_eq.
  intros [H|[-> H]] [H'|[-> H']]; try (left; lia). right. split; [reflexivity|]. apply (IH _ _ H H').
Qed.
Lemma lexleb_anti a b : lexleb a b = true -> lexleb b a = true -> a = b.
Proof.
  revert b. induction a as [|x a IH]; intros [|y b]; cbn; auto; try discriminate.
  rewrite !Bool.orb_true_iff, !Bool.andb_true_iff, !Z.ltb_lt, !Z.eqb_eq.
  intros [H|[E H]] [H'|[E' H']]; try lia. subst. rewrite (IH _ H H'). reflexivity.
Qed.

(** a product symmetry of U1, Z2 and ZN factors *)
Definition sym_chg (ss : list sym) (H : forallb ok_sym ss = true) : chg.
Proof.
  refine (@row_chg ss H lexleb lexleb_total lexleb_trans _).
  intros a b _ _. apply lexleb_anti.
Defined.

(** integers, residues modulo 2 *)
Definition Z_chg : chg.
Proof.
  refine (@Chg Z Z.add Z.opp 0%Z Z.eq_dec Z.leb _ _ _ _ _ _ _).
  - exact Z.add_assoc.
  - exact Z.add_comm.
  - exact Z.add_0_l.
  - exact Z.add_opp_diag_l.
  - intros x y. rewrite !Z.leb_le. lia.
  - intros x y z. rewrite !Z.leb_le. lia.
  - intros x y. rewrite !Z.leb_le. lia.
Defined.
Definition B_chg : chg.
Proof.
  refine (@Chg bool xorb (fun x => x) false Bool.bool_dec (fun x y => implb x y) _ _ _ _ _ _ _).
  - intros [] [] []; reflexivity.
  - intros [] []; reflexivity.
  - intros []; reflexivity.
  - intros []; reflexivity.
  - intros [] []; cbn; auto.
  - intros [] [] []; cbn; auto.
  - intros [] []; cbn; auto; discriminate.
Defined.
Canonical Structure Z_chg.
