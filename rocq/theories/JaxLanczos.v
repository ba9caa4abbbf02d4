(** * JaxLanczos: [eigsh_lanczos] of the jax backend
    (backends/jax/jitted_functions.py 60-236, backends/jax/jax_backend.py 463-578).

    Vectors, scalars, [out] as in Krylov.v; [gram_schmidt], [mask] as in JaxKrylov.v; [put] (updates out of bounds are
    dropped) as in Gmres.v.  Left out: jit, precision, dtypes, the caches, the random initial state, rounding. *)
From Verif Require Import Prelude Algebra Krylov KrylovFacts Gmres JaxKrylov.
Set Implicit Arguments.
Unset Strict Implicit.

Section JaxLanczos.
  Context {K : cfd} {V : ips K}.
  (** [matvec(x, *arguments)] *)
  Variable A : V -> V.
  (** [jax.numpy.linalg.eigh] *)
  Variable eigh : mx K -> option (list K * mx K).
  Variables (ncv : nat) (landelta : K) (reortho : bool).

  (** [body_lanczos] (136-175); the counter i starts at 1 *)
  Definition body_lanczos (kv : list V) (al be : list K) (i : nat) : out (list V * list K * list K * nat) :=
    let pv := nth i kv vz in
    let pv := if reortho then fst (gram_schmidt (mask (i - 1) kv) pv) else pv in
    obind (nrm pv) (fun beta =>
    obind (vdiv pv beta) (fun nv =>
    let Av := A nv in
    let alpha := ip nv Av in
    let al := put al (i - 1) alpha in
    let be := put be i beta in
    let next := if reortho then Av else vsub (vsub Av (vs alpha nv)) (vs beta (nth (i - 1) kv vz)) in
    Val (put (put kv i nv) (S i) next, al, be, S i))).

  (** [while_loop(cond_fun, body_lanczos, initvals)] (177-181, 199-200); every round raises i, so ncv rounds are enough *)
  Fixpoint jl_loop (fuel : nat) (kv : list V) (al be : list K) (i : nat) : out (list V * list K * list K * nat) :=
    match fuel with
    | 0 => Val (kv, al, be, i)
    | S fuel =>
      if (i <=? ncv) && clt landelta (nth (i - 1) be r0) then
        obind (body_lanczos kv al be i) (fun r => let '(kv, al, be, i) := r in jl_loop fuel kv al be i)
      else Val (kv, al, be, i)
    end.

  (** [initvals] (183-198) and the loop *)
  Definition jl_run (init : V) : out (list V * list K * list K * nat) :=
    jl_loop ncv (put (repeat vz (ncv + 2)) 1 init) (repeat r0 ncv) (put (repeat r0 (S ncv)) 0 r1) 1.

  (** [fori_loop(0, neig * (krylov_vecs.shape[0] - 1), body_vector, ...)] (217-229) *)
  Definition jl_vectors (neig : nat) (kv : list V) (U : mx K) : list V :=
    fold_left (fun vecs i =>
      let n := i / ncv in
      let m := i mod ncv in
      put vecs n (va (nth n vecs vz) (vs (ent U m n) (nth (S m) kv vz))))
      (seq 0 (neig * (length kv - 1))) (repeat vz neig).

  (** [vectors[n] / norm(vectors[n])] (231-233) *)
  Fixpoint normalised (l : list V) : out (list V) :=
    match l with
    | [] => Val []
    | s :: l => obind (nrm s) (fun n => obind (vdiv s n) (fun x => obind (normalised l) (fun xs => Val (x :: xs))))
    end.

  (** [jax_lanczos] (95-233): eigenvalues, eigenvectors, numits; and (not returned by the code) the Krylov vectors,
      alphas and betas *)
  Definition jax_lanczos (neig : nat) (init : V) : out (list K * list V * nat * (list V * list K * list K)) :=
    obind (jl_run init) (fun r =>
    let '(kv, al, be, numits) := r in
    obind (ofopt (eigh (tridiag al (tl be)))) (fun eu =>
    obind (normalised (jl_vectors neig kv (snd eu))) (fun xs =>
    Val (firstn neig (fst eu), xs, numits, (kv, al, be))))).

  (** [JaxBackend.eigsh_lanczos] (jax_backend.py 543-578); the last part tells whether the warning is given *)
  Definition jax_eigsh_lanczos (numeig : nat) (init : V) : out (list K * list V * bool) :=
    if ncv <? numeig then Err
    else if (1 <? numeig) && negb reortho then Err
    else obind (jax_lanczos numeig init) (fun r => let '(vals, vecs, numits, _) := r in Val (vals, vecs, numits <? numeig)).
End JaxLanczos.
