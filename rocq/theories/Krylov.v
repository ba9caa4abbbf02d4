(** * Krylov: the scalars and vectors of the Krylov methods, and [eigsh_lanczos]
    (backends/numpy/numpy_backend.py 415-534; the same loop runs in
    backends/symmetric/symmetric_backend.py 370-438).

    The arrays the method works on all have the shape of [initial_state]; only sums, multiples,
    [np.dot(np.ravel(np.conj(x)), np.ravel(y))] and [norm] are ever applied to them.  They are
    elements of an arbitrary inner product space here; [tup_ips] (KrylovFacts.v) is the space of
    arrays with n entries.  Rounding is not modelled. *)
From Coq Require Import Field.
From Verif Require Import Prelude Algebra.
Set Implicit Arguments.
Unset Strict Implicit.

(** A field with conjugation, non-negative elements, a comparison and a partial square root
    ([csqrt x = None]: x has no square root in the field). *)
Record cfd := CFD {
  cfb :> cjr;
  cop : cfb -> cfb;
  cinv : cfb -> cfb;
  cfth : field_theory r0 r1 radd rmul (fun x y => x +! cop y) cop (fun x y => x *! cinv y) cinv (@eq cfb);
  cdec : forall x y : cfb, {x = y} + {x <> y};
  cpos : cfb -> Prop;
  cpos_add : forall x y, cpos x -> cpos y -> cpos (x +! y);
  cpos_mul : forall x y, cpos x -> cpos y -> cpos (x *! y);
  cpos_sq : forall x, cpos (cj x *! x);
  cpos_anti : forall x, cpos x -> cpos (cop x) -> x = r0;
  cpos_real : forall x, cpos x -> cj x = x;
  cpos_total : forall x, cj x = x -> cpos x \/ cpos (cop x);
  clt : cfb -> cfb -> bool;
  clt_ok : forall x y, clt x y = true <-> cpos (y +! cop x) /\ x <> y;
  csqrt : cfb -> option cfb;
  csqrt_ok : forall x y, csqrt x = Some y -> y *! y = x /\ cpos y
}.
Arguments cop {c}. Arguments cinv {c}. Arguments cpos {c}. Arguments clt {c}. Arguments csqrt {c}. Arguments cdec {c}.
Notation "x -! y" := (x +! cop y) (at level 50, left associativity) : csr_scope.

(** An inner product space ([ip x y]: conjugate linear in x). *)
Record ips (K : cfd) := IPS {
  vt :> Type;
  vz : vt;
  va : vt -> vt -> vt;
  vs : K -> vt -> vt;
  ip : vt -> vt -> K;
  va_comm : forall x y, va x y = va y x;
  va_assoc : forall x y z, va x (va y z) = va (va x y) z;
  va_z : forall x, va x vz = x;
  vs_0 : forall x, vs r0 x = vz;
  vs_1 : forall x, vs r1 x = x;
  vs_mul : forall a b x, vs a (vs b x) = vs (a *! b) x;
  vs_add : forall a b x, vs (a +! b) x = va (vs a x) (vs b x);
  ip_add : forall x y z, ip x (va y z) = ip x y +! ip x z;
  ip_vs : forall a x y, ip x (vs a y) = a *! ip x y;
  ip_cj : forall x y, ip y x = cj (ip x y);
  ip_pos : forall x, cpos (ip x x);
  ip_def : forall x, ip x x = r0 -> x = vz
}.
Arguments vz {K i}. Arguments va {K i}. Arguments vs {K i}. Arguments ip {K i}.

(** The outcome of a computation: a value, a python exception, or a quotient by zero (nan in numpy)
    respectively a square root that does not exist in the field. *)
Inductive out (A : Type) := Val (x : A) | Err | Undef.
Arguments Val {A}. Arguments Err {A}. Arguments Undef {A}.
Definition obind {A B} (r : out A) (f : A -> out B) : out B :=
  match r with Val x => f x | Err => Err | Undef => Undef end.
Definition ofopt {A} (r : option A) : out A := match r with Some x => Val x | None => Undef end.

Section Vectors.
  Context {K : cfd} {V : ips K}.
  (** [x - y] *)
  Definition vsub (x y : V) : V := va x (vs (cop r1) y).
  (** [norm] (numpy_backend.py 108-109) *)
  Definition nrm (x : V) : out K := ofopt (csqrt (ip x x)).
  (** [x / n] *)
  Definition vdiv (x : V) (n : K) : out V := if cdec n r0 then Undef else Val (vs (cinv n) x).
  (** [vector_n -= np.dot(np.ravel(np.conj(v)), np.ravel(vector_n)) * v] (500) *)
  Definition gs1 (w v : V) : V := vsub w (vs (ip v w) v).
End Vectors.

(** ** Matrices: lists of rows *)
Definition mx (K : Type) := list (list K).
Definition ent {K : cfd} (m : mx K) (i j : nat) : K := nth j (nth i m []) r0.
Definition mkmx {K : Type} (n m : nat) (f : nat -> nat -> K) : mx K := map (fun i => map (f i) (seq 0 m)) (seq 0 n).
(** [np.diag(diag) + np.diag(norms[1:], 1) + np.diag(np.conj(norms[1:]), -1)] (508-509, 523-524) *)
Definition tridiag {K : cfd} (dg nr : list K) : mx K :=
  let o := tl nr in
  mkmx (length dg) (length dg) (fun i j =>
    (if i =? j then nth i dg r0 else r0) +!
    (if j =? S i then nth i o r0 else r0) +!
    (if i =? S j then cj (nth j o r0) else r0)).

(** Why the loop ended. *)
Inductive ending := Invariant | Converged | Exhausted.

Section Lanczos.
  Context {K : cfd} {V : ips K}.
  (** [A(vector, *args)]; the flag tells whether the array returned is the argument itself
      (as for [lambda x: x]): the updates [A_vector_n -= ...] are in place (517-520). *)
  Variable A : V -> V * bool.
  (** [np.linalg.eigh]: eigenvalues and the matrix whose columns are the eigenvectors *)
  Variable eigh : mx K -> option (list K * mx K).
  Variables (numeig : nat) (tol delta : K) (ndiag : nat) (reortho : bool).

  (** [np.linalg.norm(eigvals[0:numeig] - eigvalsold[0:numeig]) < tol] (512) *)
  Definition close (new old : list K) : out bool :=
    obind (ofopt (csqrt (lsum (combine new old) (fun p => cj (fst p -! snd p) *! (fst p -! snd p))))) (fun d =>
    Val (clt d tol)).

  (** the loop (490-521): [it] counts up, [fuel] is what is left of [range(num_krylov_vecs)] *)
  Fixpoint lanczos_loop (fuel it : nat) (kv : list V) (dg nr : list K) (old : option (list K)) (w : V) :
    out (list V * list K * list K * ending) :=
    match fuel with
    | 0 => Val (kv, dg, nr, Exhausted)
    | S fuel =>
      obind (nrm w) (fun n =>
      if clt n delta then Val (kv, dg, nr, Invariant)
      else
        let nr := nr ++ [n] in
        obind (vdiv w n) (fun v =>
        let v := if reortho then fold_left gs1 kv v else v in
        let Av := fst (A v) in
        let a := ip v Av in
        let dg := dg ++ [a] in
        let prev := last kv vz in
        obind
          (if 0 <? it then
             if ndiag =? 0 then Err
             else if (it mod ndiag =? 0) && (numeig <=? length dg) then
               obind (ofopt (eigh (tridiag dg nr))) (fun eu =>
               let ev := firstn numeig (fst eu) in
               obind (match old with None => Val false | Some o => close ev o end) (fun c =>
               Val (c, Some ev)))
             else Val (false, old)
           else Val (false, old))
          (fun co =>
        let (c, old) := co in
        if (c : bool) then Val (kv ++ [v], dg, nr, Converged)
        else
          let w := vsub Av (vs a v) in
          let w := if 0 <? it then vsub w (vs n prev) else w in
          lanczos_loop fuel (S it) (kv ++ [if snd (A v) then w else v]) dg nr old w)))
    end.

  (** [state += vec * u[n1, n2]] over all vectors (530-532) *)
  Definition expand (kv : list V) (u : mx K) (n2 : nat) : V :=
    fold_left (fun s p => va s (vs (ent u (fst p) n2) (snd p))) (combine (seq 0 (length kv)) kv) vz.
  (** lines 529-533 *)
  Fixpoint eigvecs (kv : list V) (u : mx K) (ns : list nat) : out (list V) :=
    match ns with
    | [] => Val []
    | n2 :: ns =>
      let s := expand kv u n2 in
      obind (nrm s) (fun n => obind (vdiv s n) (fun x => obind (eigvecs kv u ns) (fun xs => Val (x :: xs))))
    end.

  (** the checks and the normalisation [vector_n /= Z] (465-484, in place), the loop, and lines 523-534.
      The result: the eigenvalues, the eigenvectors, the content of the array [initial_state] afterwards,
      and (not returned by the code) the Krylov vectors, the entries of the tridiagonal matrix, why the
      loop ended. *)
  Definition lanczos (ncv : nat) (init : V) :
    out (list K * list V * V * (list V * list K * list K * ending)) :=
    if ncv <? numeig then Err
    else if (1 <? numeig) && negb reortho then Err
    else
      obind (nrm init) (fun z => obind (vdiv init z) (fun w =>
      obind (lanczos_loop ncv 0 [] [] [] None w) (fun r =>
      let '(kv, dg, nr, _) := r in
      obind (ofopt (eigh (tridiag dg nr))) (fun eu =>
      obind (eigvecs kv (snd eu) (seq 0 (Nat.min numeig (length (fst eu))))) (fun xs =>
      Val (firstn numeig (fst eu), xs, w, r)))))).
End Lanczos.
