(** * GmresSpec: what GMRES promises *)
From Verif Require Import Prelude Algebra Krylov KrylovFacts KrylovSpec.
Set Implicit Arguments.
Unset Strict Implicit.

Section Spec.
  Context {K : cfd} {V : ips K}.
  Definition linear (A : V -> V) : Prop :=
    (forall x y, A (va x y) = va (A x) (A y)) /\ (forall a x, A (vs a x) = vs a (A x)).
  (** the square of the length *)
  Definition nsq (x : V) : K := ip x x.
  (** d lies in the Krylov space of r of dimension k and makes the length of r - A d least there *)
  Definition min_residual (A : V -> V) (r : V) (k : nat) (d : V) : Prop :=
    in_span (krylov A r k) d /\
    forall z, in_span (krylov A r k) z -> cpos (nsq (vsub r (A z)) -! nsq (vsub r (A d))).
  (** no vector was replaced by zero although it is not zero: for a zero vector l[j+1] (j < k), A l[j] is a
      combination of the vectors up to l[j] *)
  Definition not_dropped (A : V -> V) (l : list V) (k : nat) : Prop :=
    forall j, j < k -> nth (S j) l vz = vz -> in_span (firstn (S j) l) (A (nth j l vz)).
  (** What the first restart leaves: b_norm = |b|, beta = |b - A x0|; l starts with an orthonormal basis of the Krylov
      space of b - A x0 of dimension min (k, n_kry), k the number of steps; x - x0 minimises the residual there; when
      the loop stopped before the last step, the residual of x is within the tolerance times |b| (within the
      tolerance, if no step was made) *)
  Definition first_restart_spec (A : V -> V) (size : nat) (b x0 : V) (tol : K) (nkv k : nat) (l : list V) (b_norm beta : K) (x : V) : Prop :=
    let n_kry := Nat.min nkv size in
    let q := Nat.min k n_kry in
    let r := vsub b (A x0) in
    csqrt (nsq b) = Some b_norm /\ csqrt (nsq r) = Some beta /\ k <= S n_kry /\
    (0 < k -> orthonormal (firstn q l) /\ same_span (firstn q l) (krylov A r q)) /\
    min_residual A r q (vsub x x0) /\
    (k <= n_kry -> exists n, csqrt (nsq (vsub b (A x))) = Some n /\ clt (if k =? 0 then tol else tol *! b_norm) n = false).
End Spec.
