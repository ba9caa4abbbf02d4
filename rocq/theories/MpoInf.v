(** * MpoInf: model of InfiniteMPO (matrixproductstates/mpo.py) *)
From Coq Require Import ZArith.
From Verif Require Import Prelude Algebra Tensor Res.
Set Implicit Arguments.
Unset Strict Implicit.

(** python's [l[z]]: negative numbers count from the end *)
Definition py_get A (l : list A) (z : Z) : res A :=
  let n := Z.of_nat (length l) in
  let i := if (z <? 0)%Z then (z + n)%Z else z in
  if (i <? 0)%Z then Raise else match nth_error l (Z.to_nat i) with Some x => Ok x | None => Raise end.
(** python's [range(a, b)] *)
Definition py_range (a b : Z) : list Z := map (fun k => (a + Z.of_nat k)%Z) (seq 0 (Z.to_nat (b - a))).

(** mpo.py 99-102 [InfiniteMPO.roll]: the new list of tensors *)
Definition mpo_roll A (num_sites : Z) (ts : list A) : res (list A) :=
  rbind (mapr (py_get ts) (py_range num_sites (Z.of_nat (length ts)))) (fun x =>
  rbind (mapr (py_get ts) (py_range 0 num_sites)) (fun y => Ok (x ++ y))).

(** mpo.py 83-97 [InfiniteMPO.__init__]; the conversion to the backend and the test of dtypes are not modelled *)
Definition infinite_mpo {R : csr} (ts : list (tensor R)) : res (list (tensor R)) :=
  match ts with
  | [] => Raise                       (* IndexError in bond_dimensions *)
  | t :: _ => if nth 0 (shape t) 0 =? nth 1 (shape (last ts t)) 0 then Ok ts else Raise
  end.
