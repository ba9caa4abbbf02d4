(** * SvdTrunc: the number of singular values kept by [svd],
    tensornetwork/backends/numpy/decompositions.py:38-68 (tensorflow/decompositions.py:86-118,
    pytorch/decompositions.py and jax use the same rule).

    Singular values are real numbers; floating point rounding is not modelled. *)
From Coq Require Import Reals List.
From Verif Require Import Res.
Import ListNotations.
Set Implicit Arguments.
Unset Strict Implicit.
Local Open Scope R_scope.

(** [np.cumsum] *)
Fixpoint rcumsum (acc : R) (l : list R) : list R :=
  match l with [] => [] | x :: r => (acc + x) :: rcumsum (acc + x) r end.
(** 43: [np.sqrt(np.cumsum(np.square(s[::-1])))] *)
Definition trunc_errs (s : list R) : list R := map sqrt (rcumsum 0 (map (fun x => x * x) (rev s))).
(** 52-53: [np.count_nonzero(trunc_errs > abs_max_truncation_error)] *)
Definition count_gt (e : R) (l : list R) : nat := length (filter (fun x => if Rlt_dec e x then true else false) l).
(** 38-57; [s[0]] of an empty array raises *)
Definition num_keep (s : list R) (max_singular_values : option nat) (max_truncation_error : option R) (relative : bool) : res nat :=
  let m := match max_singular_values with Some d => d | None => length s end in
  match max_truncation_error with
  | None => Ok (Nat.min m m)
  | Some e =>
      if relative then
        match s with
        | [] => Raise
        | s0 :: _ => Ok (Nat.min m (count_gt (e * s0) (trunc_errs s)))
        end
      else Ok (Nat.min m (count_gt e (trunc_errs s)))
  end.
(** 65-66: the kept and the discarded values *)
Definition truncate (s : list R) max_singular_values max_truncation_error (relative : bool) : res (list R * list R) :=
  rbind (num_keep s max_singular_values max_truncation_error relative) (fun k => Ok (firstn k s, skipn k s)).
