(** * JaxKrylovSpec: Arnoldi factorisations and the contracts of qr and eig *)
From Verif Require Import Prelude Algebra Krylov KrylovFacts KrylovSpec Gmres GmresSpec JaxKrylov.
Set Implicit Arguments.
Unset Strict Implicit.

Section Spec.
  Context {K : cfd} {V : ips K}.
  (** A V = V H + f e_n^T: the n vectors are orthonormal, H is upper Hessenberg, f is orthogonal to the vectors *)
  Record arnoldi_fac (A : V -> V) (l : list V) (H : mx K) (f : V) : Prop := {
    af_on : orthonormal l;
    af_eq : forall j, j < length l -> A (nth j l vz) = va (lin (fun i => ent H i j) l) (if S j =? length l then f else vz);
    af_perp : forall i, i < length l -> ip (nth i l vz) f = r0;
    af_hess : forall i j, i < length l -> j < length l -> S j < i -> ent H i j = r0
  }.
  (** n rows of n entries *)
  Definition square (n : nat) (H : mx K) : Prop := length H = n /\ forall i, i < n -> length (nth i H []) = n.
  Definition hessenberg (n : nat) (m : mx K) : Prop := forall i j, i < n -> j < n -> S j < i -> ent m i j = r0.
  (** Q is unitary, R upper triangular, Q R = M; and the QR decomposition (a product of reflections or rotations of
      neighbouring rows) of a Hessenberg matrix has a Hessenberg matrix Q *)
  Definition qr_ok (n : nat) (M : mx K) (QR : mx K * mx K) : Prop :=
    let (Q, R) := QR in
    (forall i j, i < n -> j < n -> nsum n (fun k => cj (ent Q k i) *! ent Q k j) = delta_ i j) /\
    (forall i j, i < n -> j < n -> nsum n (fun k => ent Q i k *! cj (ent Q j k)) = delta_ i j) /\
    (forall i j, i < n -> j < n -> nsum n (fun k => ent Q i k *! ent R k j) = ent M i j) /\
    (forall i j, i < n -> j < n -> j < i -> ent R i j = r0) /\
    (hessenberg n M -> hessenberg n Q).
  Definition qr_contract (qr : mx K -> option (mx K * mx K)) : Prop :=
    forall m QR, qr m = Some QR -> qr_ok (length m) m QR.
  (** eigenvalues and normalised eigenvectors (columns) of an n x n matrix *)
  Definition eig_ok (n : nat) (m : mx K) (eu : list K * mx K) : Prop :=
    let (th, U) := eu in
    length th = n /\
    (forall i j, i < n -> j < n -> nsum n (fun k => ent m i k *! ent U k j) = nth j th r0 *! ent U i j) /\
    (forall j, j < n -> nsum n (fun k => cj (ent U k j) *! ent U k j) = r1).
  Definition eig_contract (eig : mx K -> option (list K * mx K)) : Prop :=
    forall m eu, eig m = Some eu -> eig_ok (length m) m eu.
  (** (A - s_m) ... (A - s_1) x *)
  Definition filter_ (A : V -> V) (shifts : list K) (x : V) : V := fold_left (fun y s => vsub (A y) (vs s y)) shifts x.
  (** x comes before y in the order asked for: largest real part, largest absolute value, largest, smallest *)
  Definition before (w : target) (x y : K) : Prop :=
    match w with SA => cpos (y -! x) | LA => cpos (x -! y) | LR => cpos ((x +! cj x) -! (y +! cj y)) | LM => cpos (cj x *! x -! cj y *! y) end.
  Definition sortable (w : target) (l : list K) : Prop := match w with LR | LM => True | LA | SA => forall x, In x l -> cj x = x end.
  (** x is a vector of length 1 of the space of kv, and A x = th x + c f with |c| <= 1 *)
  Definition ritz_approx (A : V -> V) (kv : list V) (f : V) (th : K) (x : V) : Prop :=
    in_span kv x /\ ip x x = r1 /\ exists c, cpos (r1 -! cj c *! c) /\ A x = va (vs th x) (vs c f).
  (** th is a bound of the Rayleigh quotient of y: from below (SA), from above (LA) *)
  Definition bounds (w : target) (A : V -> V) (th : K) (y : V) : Prop :=
    match w with SA => cpos (ip y (A y) -! th *! ip y y) | LA => cpos (th *! ip y y -! ip y (A y)) | _ => True end.
  Definition shorter (f : V) (tol : K) : Prop := exists n, csqrt (ip f f) = Some n /\ clt n tol = true.
  (** the result of a factorisation with at most N vectors *)
  Definition fact_spec (A : V -> V) (N : nat) (tol : K) (v0 : V) (Vm : list V) (H : mx K) (residual : V) (norm : K) (it : nat) (conv : bool) : Prop :=
    length Vm = N /\ it <= N /\ (it = N \/ clt tol norm = false) /\ conv = clt norm tol /\
    same_span (firstn it Vm) (krylov A v0 it) /\
    exists f, arnoldi_fac A (firstn it Vm) H f /\ csqrt (ip f f) = Some norm /\
      (clt tol norm = true -> f = vs norm residual) /\ (clt tol norm = false -> residual = vz).
End Spec.
