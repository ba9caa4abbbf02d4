(** * NconExamples: concrete networks used by the examples of P_Ncon.v *)
From Coq Require Import ZArith String Sorting.Sorted Permutation.
From Verif Require Import Prelude Algebra Tensor Einsum Ncon NconFacts NconSpec NconTop NconCheck NconMain.
Set Implicit Arguments.
Unset Strict Implicit.
Open Scope list_scope.
Open Scope string_scope.
Open Scope nat_scope.

Definition tz (k : Z) (sh : list nat) : tensor Z_csr := @Tensor Z_csr sh (fun ix => (Z.of_nat (ravel sh ix) + k)%Z).
Definition idz (l : list Z) : list Z := l.
Definition rvz (l : list Z) : list Z := rev l.
Lemma idz_perm l : Permutation (idz l) l.
Proof. apply Permutation_refl. Qed.
Lemma rvz_perm l : Permutation (rvz l) l.
Proof. apply Permutation_sym, Permutation_rev. Qed.
Definition show (r : res (tensor Z_csr)) : res (list nat * list Z) :=
  rbind r (fun t => Ok (shape t, map (elt t) (idxs (shape t)))).
Notation I z := (LInt z%Z).
Notation S s := (LStr s).

(** a trace (label 2), two shared labels (1 and "a"), a disconnected vector, a scalar *)
Definition ex1_ts := [tz 1 [2; 3; 2; 2]; tz (-3) [3; 2; 2]; tz 2 [2]; tz 5 []].
Definition ex1_ns : list (list label) := [[I 1; S "a"; I 2; I 2]; [S "a"; I 1; I (-2)]; [I (-1)]; []].
Definition ex1_dim (l : label) : nat := match l with LStr _ => 3 | _ => 2 end.

(** label 7 on three tensors, label -1 on two *)
Definition ex2_ts := [tz 1 [2; 2; 3]; tz (-3) [2; 2]; tz 2 [2; 3; 2]].
Definition ex2_ns : list (list label) := [[I 7; I (-1); I 3]; [I (-1); I 7]; [I 7; I 3; S "-x"]].
Definition ex2_dim (l : label) : nat := match l with LInt 3 => 3 | _ => 2 end.

Ltac labels := intros ? Hl; cbn in Hl; repeat (destruct Hl as [<-|Hl]); try contradiction.
Ltac sizes := split; [reflexivity|]; intros ? Hx; cbn in Hx; repeat (destruct Hx as [<-|Hx]); try contradiction; reflexivity.

Lemma ex1_sized : sized ex1_dim ex1_ts ex1_ns. Proof. sizes. Qed.
Lemma ex1_labels : forall l, In l (List.concat ex1_ns) -> label_ok l.
Proof. labels; apply label_ok_spec; repeat split; discriminate. Qed.
Lemma ex1_standard : standard ex1_ns.
Proof. labels; try (left; split; [apply is_out_Open|]; reflexivity); right; (split; [apply is_out_not|]; reflexivity). Qed.
Lemma ex1_con : con_spec ex1_ns (Some [S "a"; I 2; I 1]).
Proof. apply check_con_spec; [exact ex1_labels | reflexivity]. Qed.
Lemma ex1_out : out_spec ex1_ns None [I (-1); I (-2)].
Proof.
  split; [apply check_out_spec; [exact ex1_labels | reflexivity]|].
  repeat constructor. discriminate.
Qed.

Lemma ex2_sized : sized ex2_dim ex2_ts ex2_ns. Proof. sizes. Qed.
Lemma ex2_labels : forall l, In l (List.concat ex2_ns) -> label_ok l.
Proof. labels; apply label_ok_spec; repeat split; discriminate. Qed.
Lemma ex2_ordinary : ordinary ex2_ns.
Proof.
  intros ls l H. cbn in H. repeat (destruct H as [<-|H]); try contradiction;
    intros Hl; cbn in Hl; repeat (destruct Hl as [<-|Hl]); try contradiction; left; reflexivity.
Qed.
Lemma ex2_out : out_spec ex2_ns (Some [S "-x"; I (-1)]) [S "-x"; I (-1)].
Proof. split; [apply check_out_spec; [exact ex2_labels | reflexivity] | reflexivity]. Qed.
