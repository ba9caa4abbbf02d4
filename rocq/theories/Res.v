(** * Res: exceptions as values, python's sorted, numpy's unique and intersect1d *)
From Verif Require Import Prelude.
From Coq Require Import Sorting.Sorted.
Set Implicit Arguments.
Unset Strict Implicit.

(** [Raise] is a python exception, [Fuel] running out of fuel in a loop that is not structurally terminating *)
Inductive res (A : Type) := Ok (x : A) | Raise | Fuel.
Arguments Ok {A}.
Arguments Raise {A}.
Arguments Fuel {A}.
Definition rbind {A B} (r : res A) (f : A -> res B) : res B :=
  match r with Ok x => f x | Raise => Raise | Fuel => Fuel end.
Definition guard {A} (b : bool) (r : res A) : res A := if b then r else Raise.
Fixpoint mapr {A B} (f : A -> res B) (l : list A) : res (list B) :=
  match l with
  | [] => Ok []
  | x :: r => rbind (f x) (fun y => rbind (mapr f r) (fun ys => Ok (y :: ys)))
  end.

(** python's sorted, as insertion sort *)
Section Sort.
  Variable A : Type.
  Variable leb : A -> A -> bool.
  Fixpoint insert (x : A) (l : list A) : list A :=
    match l with
    | [] => [x]
    | y :: r => if leb x y then x :: l else y :: insert x r
    end.
  Fixpoint sort (l : list A) : list A :=
    match l with [] => [] | x :: r => insert x (sort r) end.
End Sort.

Section SortFacts.
  Variable A : Type.
  Variable leb : A -> A -> bool.
  Lemma insert_perm x l : Permutation (insert leb x l) (x :: l).
  Proof.
    induction l as [|y r IH]; simpl; [apply Permutation_refl|].
    destruct (leb x y); [apply Permutation_refl|].
    rewrite IH. apply perm_swap.
  Qed.
  Lemma sort_perm l : Permutation (sort leb l) l.
  Proof.
    induction l as [|x r IH]; simpl; [apply Permutation_refl|].
    rewrite insert_perm, IH. apply Permutation_refl.
  Qed.
  Lemma In_sort x l : In x (sort leb l) <-> In x l.
  Proof. split; apply Permutation_in; [|apply Permutation_sym]; apply sort_perm. Qed.
  Lemma NoDup_sort l : NoDup l -> NoDup (sort leb l).
  Proof. apply Permutation_NoDup, Permutation_sym, sort_perm. Qed.

  Hypothesis total : forall x y, leb x y = true \/ leb y x = true.
  Hypothesis trans : forall x y z, leb x y = true -> leb y z = true -> leb x z = true.
  Lemma insert_sorted x l :
    StronglySorted (fun a b => leb a b = true) l ->
    StronglySorted (fun a b => leb a b = true) (insert leb x l).
  Proof.
    induction 1 as [|y r Hr IH Hy]; simpl; [constructor; constructor|].
    destruct (leb x y) eqn:E.
    - constructor; [constructor; assumption|]. constructor; [exact E|].
      eapply Forall_impl; [|exact Hy]. cbn. intros a Ha. eapply trans; eassumption.
    - constructor; [exact IH|].
      eapply Permutation_Forall; [apply Permutation_sym, insert_perm|].
      constructor; [|exact Hy]. destruct (total x y); congruence.
  Qed.
  Lemma sort_sorted l : StronglySorted (fun a b => leb a b = true) (sort leb l).
  Proof. induction l; simpl; [constructor | apply insert_sorted; assumption]. Qed.
End SortFacts.

(** two sorted permutations of each other are equal, for an antisymmetric order *)
Lemma sorted_unique A (le : A -> A -> Prop) (anti : forall x y, le x y -> le y x -> x = y) l1 : forall l2,
  StronglySorted le l1 -> StronglySorted le l2 -> Permutation l1 l2 -> l1 = l2.
Proof.
  induction l1 as [|x r IH]; intros l2 S1 S2 P.
  - apply Permutation_nil in P. congruence.
  - destruct l2 as [|y r2]; [apply Permutation_sym, Permutation_nil in P; discriminate|].
    inversion S1 as [|? ? S1' F1]; inversion S2 as [|? ? S2' F2]; subst.
    assert (x = y) as E.
    { assert (In y (x :: r)) as Hy by (eapply Permutation_in; [apply Permutation_sym; exact P | left; reflexivity]).
      assert (In x (y :: r2)) as Hx by (eapply Permutation_in; [exact P | left; reflexivity]).
      destruct Hy as [Hy|Hy]; [exact Hy|]. destruct Hx as [Hx|Hx]; [congruence|].
      rewrite Forall_forall in F1, F2. apply anti; auto. }
    subst y. f_equal. apply IH; auto. eapply Permutation_cons_inv; exact P.
Qed.
