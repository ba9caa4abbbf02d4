(** * MpoSpec: the operator a matrix product operator stands for, and the spin chain Hamiltonians *)
From Verif Require Import Prelude Algebra Tensor.
Set Implicit Arguments.
Unset Strict Implicit.

Section Spec.
  Context {R : csr}.
  (** the matrix element between the basis states [s] and [s'] (one entry per site) of the contracted chain of tensors
      with axes (left, right, row, column): the sum over all values [b] of the right bonds; the outermost left bond is 0 *)
  Definition mpo_entry (ts : list (tensor R)) (s s' : list nat) : R :=
    lsum (idxs (map (fun t => nth 1 (shape t) 0) ts)) (fun b =>
      lprod (seq 0 (length ts)) (fun k =>
        elt (nth k ts (Tensor [] (fun _ => r0))) [nth k (0 :: b) 0; nth k b 0; nth k s 0; nth k s' 0])).

  Definition op := nat -> nat -> R.
  Definition one_op : op := fun i j => if i =? j then r1 else r0.
  (** the product of one operator per site *)
  Definition product_op (X : nat -> op) (s s' : list nat) : R :=
    lprod (seq 0 (length s)) (fun k => X k (nth k s 0) (nth k s' 0)).
  Definition on1 (n : nat) (A : op) : nat -> op := fun k => if k =? n then A else one_op.
  Definition on2 (n : nat) (A B : op) : nat -> op := fun k => if k =? n then A else if k =? S n then B else one_op.

  (** spin 1/2: state 0 is down, state 1 is up *)
  Definition Sz (half mone : R) : op := fun i j => if i =? j then (if i =? 0 then mone *! half else half) else r0.
  Definition Sp : op := fun i j => if (i =? 1) && (j =? 0) then r1 else r0.
  Definition Sm : op := fun i j => if (i =? 0) && (j =? 1) then r1 else r0.
  (** sum_n Jz_n Sz_n Sz_n+1 + Jxy_n/2 (S+_n S-_n+1 + S-_n S+_n+1) + sum_n Bz_n Sz_n on N sites *)
  Definition H_xxz (half mone : R) (Jz Jxy Bz : nat -> R) (N : nat) (s s' : list nat) : R :=
    let sz := Sz half mone in
    nsum (N - 1) (fun n => Jz n *! product_op (on2 n sz sz) s s' +!
                           Jxy n *! half *! (product_op (on2 n Sp Sm) s s' +! product_op (on2 n Sm Sp) s s')) +!
    nsum N (fun n => Bz n *! product_op (on1 n sz) s s').
  (** sigma_z = diag(-1, 1) *)
  Definition sx : op := fun i j => if i =? j then r0 else r1.
  Definition sz (mone : R) : op := fun i j => if i =? j then (if i =? 0 then mone else r1) else r0.
  Definition H_tfi (mone : R) (Jx Bz : nat -> R) (N : nat) (s s' : list nat) : R :=
    nsum (N - 1) (fun n => Jx n *! product_op (on2 n sx sx) s s') +!
    nsum N (fun n => Bz n *! product_op (on1 n (sz mone)) s s').
  Definition spins (N : nat) (s : list nat) : Prop := length s = N /\ Forall (fun i => i < 2) s.
End Spec.
