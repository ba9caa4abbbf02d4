(** * XxzSym: the XXZ Hamiltonian as a matrix product operator with U(1) symmetry (examples/dmrg/symmetric_dmrg.py).
    Charges are integers: the sums that occur lie between -3 and 3, far from the ends of int16. *)
From Coq Require Import ZArith.
From Verif Require Import Prelude Algebra Tensor Res Charge ChargeInst BlockSparse IndexOps Mpo.
Set Implicit Arguments.
Unset Strict Implicit.

Section XxzSym.
  Context {R : csr}.
  Variables half mone : R.
  Notation bst := (bst Z_chg R).
  Notation index := (index (G := Z_chg)).

  (** symmetric_dmrg.py 31-36 *)
  Definition u1_index (l : list Z) (flow : bool) : index := ([@Raw Z_chg l], [flow]).
  Definition ileft : index := u1_index [0]%Z false.
  Definition iright : index := flip_flow ileft.
  Definition i1 : index := u1_index [0; -1; 1; 0; 0]%Z false.
  Definition i2 : index := u1_index [0; -1; 1; 0; 0]%Z true.
  Definition i3 : index := u1_index [0; 1]%Z false.
  Definition i4 : index := u1_index [0; 1]%Z true.
  (** mpo.py 105-127 [FiniteMPO.__init__] with shapes of block-sparse tensors *)
  Definition finite_mpo_sym (ts : list bst) : res (list bst) :=
    match ts with
    | [] => Raise
    | t :: _ => if (nth 0 (bshape t) 0 =? 1) && (nth 1 (bshape (last ts t)) 0 =? 1) then Ok ts else Raise
    end.
  (** symmetric_dmrg.py 38-43 *)
  Definition sym_mpo (ts : list (tensor R)) : res (list bst) :=
    match ts with
    | [] => Raise
    | t :: r =>
        rbind (fromdense [ileft; i2; i3; i4] t) (fun b =>
        rbind (mapr (fromdense [i1; i2; i3; i4]) (removelast r)) (fun mid =>
        rbind (fromdense [i1; iright; i3; i4] (last ts t)) (fun l =>
        finite_mpo_sym (b :: mid ++ [l]))))
    end.
  (** symmetric_dmrg.py 16-43 [blocksparse_XXZ_mpo] *)
  Definition blocksparse_xxz (Jz Jxy Bz : list R) : res (list bst) :=
    rbind (finite_xxz half mone Jz Jxy Bz) sym_mpo.
End XxzSym.
