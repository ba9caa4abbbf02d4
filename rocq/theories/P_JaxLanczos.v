(** * C54: [eigsh_lanczos] of the jax backend *)
From Coq Require Import Reals Lra QArith Qcanon ZArith.
From Verif Require Import Prelude Algebra Krylov KrylovFacts KrylovSpec KrylovInst KrylovExamples Gmres GmresSpec GmresExamples
  JaxKrylov JaxKrylovSpec JaxKrylovExamples JaxLanczos JaxLanczosMain JaxLanczosExamples.
Open Scope nat_scope.

Section C54.
  Context {K : cfd} {V : ips K}.
  Variables (A : V -> V) (eigh : mx K -> option (list K * mx K)) (ncv : nat) (landelta : K) (reortho : bool) (neig : nat).

  (** numits - 1 = m rounds: the vectors 1..m are an orthonormal basis of the Krylov space of init, A V = V T + r e_m^T with T
      tridiagonal and Hermitian and r orthogonal to V; the matrix handed to [eigh] is T with zeros around it; every norm but
      the last is larger than landelta, and the last one is not if the loop stopped early. *)
  Theorem C54_factorisation init vals vecs numits kv al be : hermitian A ->
    jax_lanczos A eigh ncv landelta reortho neig init = Val (vals, vecs, numits, (kv, al, be)) ->
    exists m, numits = S m /\ m <= ncv /\
      let kvm := firstn m (tl kv) in let T := tridiag (firstn m al) (firstn m (tl be)) in
      length kvm = m /\ factorised A kvm T /\ tridiagonal m T /\ hermitian_mx m T /\ same_span kvm (krylov A init m) /\
      (m < ncv -> clt landelta (nth m be r0) = false) /\ (forall j, j < m -> clt landelta (nth j be r0) = true) /\
      (forall i j, i < ncv -> j < ncv -> ent (tridiag al (tl be)) i j = if (i <? m) && (j <? m) then ent T i j else r0) /\
      nth 0 be r0 = r1 /\ (0 < m -> nth 1 be r0 *! nth 1 be r0 = ip init init /\ cpos (nth 1 be r0)) /\
      (0 < m -> nth (S m) kv vz = if reortho then A (nth m kv vz) else residual A kvm T).
  Proof. intros Hh. exact (@jl_factorised K V A Hh eigh ncv landelta reortho neig init vals vecs numits kv al be). Qed.

  (** All rounds done: the pairs returned are the neig lowest Ritz pairs of the Krylov space. *)
  Theorem C54_ritz_pairs init vals vecs kv al be : hermitian A -> eigh_contract eigh -> neig <= ncv ->
    jax_lanczos A eigh ncv landelta reortho neig init = Val (vals, vecs, S ncv, (kv, al, be)) ->
    length vals = neig /\ ritz_pairs A (firstn ncv (tl kv)) (residual A (firstn ncv (tl kv)) (tridiag al (tl be))) vals vecs.
  Proof. intros Hh He Hn H. exact (@jl_ritz K V A Hh eigh He ncv landelta reortho neig init vals vecs kv al be H Hn). Qed.

  (** They are exact eigenpairs when the Krylov space is invariant. *)
  Theorem C54_exact init vals vecs kv al be : hermitian A -> eigh_contract eigh -> neig <= ncv ->
    jax_lanczos A eigh ncv landelta reortho neig init = Val (vals, vecs, S ncv, (kv, al, be)) ->
    in_span (krylov A init ncv) (Nat.iter ncv A init) ->
    forall j, j < neig -> A (nth j vecs vz) = vs (nth j vals r0) (nth j vecs vz).
  Proof. intros Hh He Hn H. exact (@jl_exact K V A Hh eigh He ncv landelta reortho neig init vals vecs kv al be H Hn). Qed.

  (** Stopped early or not: every eigenvalue returned that is not 0 comes with a unit vector x of the Krylov space of the
      rounds done and A x = theta x + c r, |c| <= 1, r the residual. *)
  Theorem C54_nonzero init vals vecs m kv al be : hermitian A -> eigh_contract eigh -> neig <= ncv ->
    jax_lanczos A eigh ncv landelta reortho neig init = Val (vals, vecs, S m, (kv, al, be)) ->
    let kvm := firstn m (tl kv) in let T := tridiag (firstn m al) (firstn m (tl be)) in
    length vals = neig /\ length vecs = neig /\
    forall j, j < neig -> nth j vals r0 <> r0 ->
      in_span kvm (nth j vecs vz) /\ ip (nth j vecs vz) (nth j vecs vz) = r1 /\
      exists c, cpos (r1 -! cj c *! c) /\ A (nth j vecs vz) = va (vs (nth j vals r0) (nth j vecs vz)) (vs c (residual A kvm T)).
  Proof. intros Hh He Hn H. exact (@jl_nonzero K V A Hh eigh He ncv landelta reortho neig init vals vecs (S m) kv al be m H Hn eq_refl). Qed.

  (** In exact arithmetic [reorthogonalize] makes no difference if all rounds are done. *)
  Theorem C54_reorthogonalize reortho' init vals vecs kv al be : hermitian A -> neig <= ncv ->
    jax_lanczos A eigh ncv landelta reortho neig init = Val (vals, vecs, S ncv, (kv, al, be)) ->
    exists kv', jax_lanczos A eigh ncv landelta reortho' neig init = Val (vals, vecs, S ncv, (kv', al, be)) /\
      firstn (S ncv) kv' = firstn (S ncv) kv.
  Proof. intros Hh Hn H. exact (@jl_reortho K V A Hh eigh ncv landelta init reortho reortho' neig vals vecs kv al be H Hn). Qed.

  (** All rounds are done, and a result is returned, if 0 <= landelta < 1, |init| > landelta and the residuals of the
      Krylov spaces of dimension < ncv are longer than landelta. *)
  Theorem C54_total init : hermitian A -> eigh_contract eigh ->
    (forall x : K, cpos x -> csqrt x <> None) ->
    (forall m, length m = ncv -> hermitian_mx ncv m -> eigh m <> None) ->
    cpos landelta -> clt landelta r1 = true -> (forall n, csqrt (ip init init) = Some n -> clt landelta n = true) ->
    (forall kv T n, 0 < length kv -> length kv < ncv -> factorised A kv T -> same_span kv (krylov A init (length kv)) ->
       csqrt (ip (residual A kv T) (residual A kv T)) = Some n -> clt landelta n = true) ->
    neig <= ncv ->
    exists vals vecs r, jax_lanczos A eigh ncv landelta reortho neig init = Val (vals, vecs, S ncv, r).
  Proof. intros Hh He Hs Hg H0 H1 Hi Hr. exact (@jl_total K V A Hh eigh He ncv landelta reortho init Hs H0 H1 Hi Hr neig Hg). Qed.

  (** The checks of [JaxBackend.eigsh_lanczos]; past them it returns what [jax_lanczos] returns, with the warning if
      numits < numeig. *)
  Theorem C54_reject init : ncv < neig \/ 1 < neig /\ reortho = false ->
    jax_eigsh_lanczos A eigh ncv landelta reortho neig init = Err.
  Proof. exact (@jl_reject K V A eigh ncv landelta reortho neig init). Qed.
  Theorem C54_accept init vals vecs warn : jax_eigsh_lanczos A eigh ncv landelta reortho neig init = Val (vals, vecs, warn) ->
    neig <= ncv /\ (1 < neig -> reortho = true) /\
    exists numits r, jax_lanczos A eigh ncv landelta reortho neig init = Val (vals, vecs, numits, r) /\ (warn = true <-> numits < neig).
  Proof. exact (@jl_accept K V A eigh ncv landelta reortho neig init vals vecs warn). Qed.
End C54.
Print Assumptions C54_factorisation.
Print Assumptions C54_ritz_pairs.
Print Assumptions C54_exact.
Print Assumptions C54_nonzero.
Print Assumptions C54_reorthogonalize.
Print Assumptions C54_total.
Print Assumptions C54_reject.
Print Assumptions C54_accept.

(** diag(1, 26) and (3/5, 4/5), two vectors (alphas 17, 10; beta 12): both eigenpairs, exactly *)
Definition d2_eig := tbl [([[z 17; z 12]; [z 12; z 10]], ([z 1; z 26], [[zq 3 5; zq 4 5]; [zq (-4) 5; zq 3 5]])); (di 17 0, ([z 0; z 17], [[z 0; z 1]; [z 1; z 0]]))].
Lemma dA_herm : hermitian dA.
Proof. apply (@rows_herm Q_cfd 2). intros i j Hi Hj. apply ceqb_eq. revert i j Hi Hj. apply all2_ok. vm_compute. reflexivity. Qed.
Definition showl (r : out (list Q_cfd * list W2 * nat * (list W2 * list Q_cfd * list Q_cfd))) :=
  match r with
  | Val (vals, xs, n, (kv, al, be)) => Some (map this vals, map xs2 xs, n, (map xs2 kv, map this al, map this be))
  | _ => None
  end.
Example C54_ritz_pairs_ex : hermitian dA /\ eigh_contract d2_eig /\ 1 <= 2 /\
  showl (jax_lanczos dA d2_eig 2 (zq 1 2) false 1 e21) =
    Some ([1]%Q, [[1; 0]]%Q, 3, ([[0; 0]; [3 # 5; 4 # 5]; [-4 # 5; 3 # 5]; [0; 0]]%Q, [17; 10]%Q, [1; 1; 12]%Q)) /\
  in_span (krylov dA e21 2) (Nat.iter 2 dA e21).
Proof.
  split; [exact dA_herm|]. split; [apply tbl_eigh; vm_compute; reflexivity|]. split; [lia|]. split; [vm_compute; reflexivity|].
  exists (fun i => if i =? 0 then z (-26) else z 27). apply xs2_inj. vm_compute. reflexivity.
Qed.
(** stopped after one round, |init| = 1/10 <= 1/2: the eigenvalues 0 and 17, of which only 17 is a Ritz value *)
Example C54_nonzero_ex : showl (jax_lanczos dA d2_eig 2 (zq 1 2) false 2 (w2 (zq 3 50) (zq 4 50))) =
    Some ([0; 17]%Q, [[-4 # 5; 3 # 5]; [3 # 5; 4 # 5]]%Q, 2, ([[0; 0]; [3 # 5; 4 # 5]; [-48 # 5; 36 # 5]; [0; 0]]%Q, [17; 0]%Q, [1; 1 # 10; 0]%Q)).
Proof. vm_compute. reflexivity. Qed.
(** the hypotheses of [C54_total] over the real numbers, with two Krylov vectors *)
Example C54_total_ex : hermitian swap /\ eigh_contract eigh2 /\ (forall x : R_cfd, cpos x -> csqrt x <> None) /\
  (forall m, length m = 2 -> hermitian_mx 2 m -> eigh2 m <> None) /\
  cpos ((1 / 2)%re : R_cfd) /\ clt ((1 / 2)%re : R_cfd) r1 = true /\ (forall n, csqrt (ip u10 u10) = Some n -> clt ((1 / 2)%re : R_cfd) n = true) /\
  (forall kv T n, 0 < length kv -> length kv < 2 -> factorised swap kv T -> same_span kv (krylov swap u10 (length kv)) ->
     csqrt (ip (residual swap kv T) (residual swap kv T)) = Some n -> clt ((1 / 2)%re : R_cfd) n = true).
Proof.
  split; [exact swap_herm|]. split; [exact eigh2_ok|]. split; [exact R_sqrt_total|]. split; [intros m E _; exact (eigh2_total E)|].
  split; [cbn; lra|]. split; [cbn; destruct (Rlt_dec (1 / 2) 1) as [_|N]; [reflexivity|lra]|]. split; [|exact swap_far].
  intros n En. apply csqrt_ok in En. destruct En as [E1 E2]. cbn in E1, E2. cbn. destruct (Rlt_dec (1 / 2) n) as [_|N]; [reflexivity|]. nra.
Qed.
Example C54_reject_ex : jax_eigsh_lanczos dA d2_eig 2 (zq 1 2) false 2 e21 = Err.
Proof. apply C54_reject. right. split; [lia|reflexivity]. Qed.
Example C54_accept_ex : match jax_eigsh_lanczos dA d2_eig 2 (zq 1 2) false 1 e21 with Val (vals, vecs, warn) => map this vals = [1]%Q /\ warn = false | _ => False end.
Proof. vm_compute. auto. Qed.
