(** * TensorExpr: conjugates of Tensor objects and products of labelled tensors (tensor.py, ncon_interface.py finalize) *)
From Coq Require Import ZArith String.
From Verif Require Import Prelude Algebra Tensor Res Ncon Linalg GraphCopy.
Set Implicit Arguments.
Unset Strict Implicit.

Section TensorExpr.
  Context {R : cjr}.
  Notation Tens := (@Tens R).

  (** tensor.py 60-70 [conj], [conjugate] *)
  Definition t_conj (a : Tens) : Tens := (fst a, conj_t (snd a)).
  (** tensor.py 52-58 [H] *)
  Definition t_H (a : Tens) : res Tens := rbind (np_transpose (conj_t (snd a)) None) (fun x => Ok (fst a, x)).
  (** tensor.py 86-95 [hconj] *)
  Definition t_hconj (a : Tens) (perm : option (list Z)) : res Tens := t_transpose (t_conj a) perm.

  (** tensor.py 193-196: tensors and their labels *)
  Definition builder := (list Tens * list (list label))%type.
  (** tensor.py 189-190 [Tensor.__call__] *)
  Definition t_call (a : Tens) (labels : list label) : builder := ([a], [labels]).
  (** tensor.py 198-202 [NconBuilder.__matmul__] *)
  Definition b_matmul (x y : builder) : builder := (fst x ++ fst y, snd x ++ snd y).

  Variable iter : list Z -> list Z.
  (** ncon_interface.py 619-663 for a list of Tensor objects: the names of the backends are compared with the given one;
      converting an array to its own backend is the identity *)
  Definition ncon_tens (b : string) (ts : list Tens) (ns : list (list label)) : res Tens :=
    if forallb (fun t => String.eqb (fst t) b) ts
    then rbind (ncon iter true (map snd ts) ns None None) (fun x => Ok (b, x))
    else Raise.
  (** ncon_interface.py 665-669 [finalize] *)
  Definition finalize (x : builder) : res Tens :=
    match fst x with
    | [] => Raise
    | t :: _ => ncon_tens (fst t) (fst x) (snd x)
    end.
End TensorExpr.
