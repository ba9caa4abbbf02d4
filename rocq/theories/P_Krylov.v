(** * C49: [eigsh_lanczos] *)
From Coq Require Import QArith Qcanon ZArith Reals.
From Verif Require Import Prelude Algebra Krylov KrylovFacts KrylovSpec KrylovMain KrylovInst KrylovExamples.
Open Scope nat_scope.

Section C49.
  Context {K : cfd} {V : ips K}.
  Variable A : V -> V * bool.
  Variable eigh : mx K -> option (list K * mx K).
  Variables (numeig : nat) (tol delta : K) (ndiag : nat) (reortho : bool).
  Notation A1 := (fun x => fst (A x)).

  (** For a Hermitian operator that does not return its argument array: the Krylov vectors are an orthonormal
      basis of the span of init, A init, ..., A^(k-1) init, and A V = V T + r e_k^T with T the tridiagonal matrix
      that is diagonalised and r orthogonal to V; k = num_krylov_vecs unless the loop was left early, and if it
      was left because of an invariant subspace then |r| < delta. *)
  Theorem C49_factorisation ncv init vals vecs w0 kv dg nr e :
    hermitian A1 -> (forall x, snd (A x) = false) -> eigh_contract eigh ->
    lanczos A eigh numeig tol delta ndiag reortho ncv init = Val (vals, vecs, w0, (kv, dg, nr, e)) ->
    factorised A1 kv (tridiag dg nr) /\ tridiagonal (length kv) (tridiag dg nr) /\
    hermitian_mx (length kv) (tridiag dg nr) /\
    same_span kv (krylov A1 init (length kv)) /\
    length kv <= ncv /\ (e = Exhausted -> length kv = ncv) /\
    (e = Invariant -> 0 < length kv -> exists n,
       csqrt (ip (residual A1 kv (tridiag dg nr)) (residual A1 kv (tridiag dg nr))) = Some n /\ clt n delta = true).
  Proof.
    intros Hh Hn He H. destruct (@lanczos_ok K V A Hh Hn eigh He _ _ _ _ _ _ _ _ _ _ _ _ _ _ H) as (H1 & H2 & H3 & H4 & H5 & H6 & H7 & _).
    exact (conj H1 (conj H2 (conj H3 (conj H4 (conj H5 (conj H6 H7)))))).
  Qed.

  (** The pairs returned are the lowest min(numeig, k) Ritz pairs of that space: orthonormal, A x = theta x + c r
      with |c| <= 1, and theta_j the least Rayleigh quotient over the Krylov vectors orthogonal to the earlier ones. *)
  Theorem C49_ritz_pairs ncv init vals vecs w0 kv dg nr e :
    hermitian A1 -> (forall x, snd (A x) = false) -> eigh_contract eigh ->
    lanczos A eigh numeig tol delta ndiag reortho ncv init = Val (vals, vecs, w0, (kv, dg, nr, e)) ->
    length vals = Nat.min numeig (length kv) /\ ritz_pairs A1 kv (residual A1 kv (tridiag dg nr)) vals vecs.
  Proof.
    intros Hh Hn He H. destruct (@lanczos_ok K V A Hh Hn eigh He _ _ _ _ _ _ _ _ _ _ _ _ _ _ H) as (_ & _ & _ & _ & _ & _ & _ & H8 & H9).
    exact (conj H8 H9).
  Qed.

  (** Exact eigenpairs when A^k init lies in the Krylov space. *)
  Theorem C49_exact ncv init vals vecs w0 kv dg nr e :
    hermitian A1 -> (forall x, snd (A x) = false) -> eigh_contract eigh ->
    lanczos A eigh numeig tol delta ndiag reortho ncv init = Val (vals, vecs, w0, (kv, dg, nr, e)) ->
    0 < length kv -> in_span (krylov A1 init (length kv)) (Nat.iter (length kv) A1 init) ->
    forall j, j < length vecs -> A1 (nth j vecs vz) = vs (nth j vals r0) (nth j vecs vz).
  Proof. intros Hh Hn He H. exact (@lanczos_exact K V A Hh Hn eigh He _ _ _ _ _ _ _ _ _ _ _ _ _ _ H). Qed.

  (** In exact arithmetic [reorthogonalize] makes no difference. *)
  Theorem C49_reorthogonalize ncv init : hermitian A1 -> (forall x, snd (A x) = false) -> numeig <= 1 ->
    lanczos A eigh numeig tol delta ndiag true ncv init = lanczos A eigh numeig tol delta ndiag false ncv init.
  Proof. intros Hh Hn. exact (@lanczos_reortho K V A Hh Hn eigh numeig tol delta ndiag ncv init). Qed.

  (** A result is returned for every accepted argument with init <> 0, delta > 0, ndiag > 0. *)
  Theorem C49_total ncv init : hermitian A1 -> (forall x, snd (A x) = false) -> eigh_contract eigh ->
    (forall x : K, cpos x -> csqrt x <> None) ->
    (forall m, length m <= ncv -> hermitian_mx (length m) m -> eigh m <> None) ->
    clt r0 delta = true -> ndiag <> 0 -> numeig <= ncv -> (1 < numeig -> reortho = true) -> init <> vz ->
    exists r, lanczos A eigh numeig tol delta ndiag reortho ncv init = Val r.
  Proof. intros Hh Hn He Hs Hg Hd Hnd. exact (@lanczos_total K V A Hh Hn eigh He numeig tol delta ndiag reortho Hs ncv Hg Hd Hnd init). Qed.

  Theorem C49_reject ncv init : ncv < numeig \/ 1 < numeig /\ reortho = false ->
    lanczos A eigh numeig tol delta ndiag reortho ncv init = Err.
  Proof. exact (@lanczos_reject K V A eigh numeig tol delta ndiag reortho ncv init). Qed.
End C49.
Print Assumptions C49_factorisation.
Print Assumptions C49_ritz_pairs.
Print Assumptions C49_exact.
Print Assumptions C49_reorthogonalize.
Print Assumptions C49_total.
Print Assumptions C49_reject.

(** a complex Hermitian 3 x 3 matrix, two Krylov vectors, both Ritz pairs (0 and 125; [show] writes a + b i as (a, b)) *)
Example C49_ex : hermitian (fun x => fst (ex_A x)) /\ (forall x, snd (ex_A x) = false) /\ eigh_contract ex_eigh /\
  show ex_run = Some
    ([(0, 0); (125, 0)]%Q,
     [[(4 # 5, 0); (0, -9 # 25); (-12 # 25, 0)]; [(3 # 5, 0); (0, 12 # 25); (16 # 25, 0)]]%Q,
     [(1, 0); (0, 0); (0, 0)]%Q,
     [[(1, 0); (0, 0); (0, 0)]; [(0, 0); (0, 3 # 5); (4 # 5, 0)]]%Q,
     [(45, 0); (80, 0)]%Q, [(1, 0); (60, 0)]%Q, Exhausted).
Proof.
  split; [exact ex_herm|]. split; [reflexivity|]. split; [exact ex_contract|]. vm_compute. reflexivity.
Qed.
(** an invariant Krylov space: diag(2, 2, 5) and (3, 4, 0): the loop stops after one vector with the exact pair *)
Definition V3q : ips Q_cfd := tup_ips Q_cfd 3.
Definition dia : V3q -> V3q * bool :=
  fun x => (rows 3 [[zq 2 1; zq 0 1; zq 0 1]; [zq 0 1; zq 2 1; zq 0 1]; [zq 0 1; zq 0 1; zq 5 1]] x, false).
Definition v340 : V3q := (zq 3 1, (zq 4 1, (zq 0 1, tt))).
Example C49_exact_ex : exists vals vecs w0 kv dg nr,
  lanczos dia (one_eigh [[zq 2 1]] ([zq 2 1], [[zq 1 1]])) 1 (zq 1 1000) (zq 1 1000) 20 false 3 v340
    = Val (vals, vecs, w0, (kv, dg, nr, Invariant)) /\
  0 < length kv /\ in_span (krylov (fun x => fst (dia x)) v340 (length kv)) (Nat.iter (length kv) (fun x => fst (dia x)) v340) /\
  vals = [zq 2 1] /\ vecs = [(zq 3 5, (zq 4 5, (zq 0 1, tt)))].
Proof.
  remember (lanczos dia (one_eigh [[zq 2 1]] ([zq 2 1], [[zq 1 1]])) 1 (zq 1 1000) (zq 1 1000) 20 false 3 v340) as r eqn:E.
  vm_compute in E. do 6 eexists. split; [exact E|]. split; [simpl; lia|]. split.
  - exists (fun _ => zq 2 1). vm_compute. reflexivity.
  - split; vm_compute; reflexivity.
Qed.
(** the hypotheses of [C49_total] over the real numbers, with one Krylov vector *)
Definition eigh1 (m : mx R_cfd) : option (list R_cfd * mx R_cfd) :=
  match m with [] => Some ([], []) | [row] => Some ([hd r0 row], [[r1]]) | _ => None end.
Definition twice : tup_ips R_cfd 2 -> tup_ips R_cfd 2 * bool := fun x => (vs (IZR 2 : R_cfd) x, false).
Example C49_total_ex : hermitian (fun x => fst (twice x)) /\ (forall x, snd (twice x) = false) /\ eigh_contract eigh1 /\
  (forall x : R_cfd, cpos x -> csqrt x <> None) /\
  (forall m, length m <= 1 -> hermitian_mx (length m) m -> eigh1 m <> None) /\
  clt (r0 : R_cfd) (IZR 1) = true /\ 20 <> 0 /\ 1 <= 1 /\ (1 < 1 -> false = true) /\
  ((IZR 3, (IZR 4, tt)) : tup_ips R_cfd 2) <> vz.
Proof.
  split. { intros x y. unfold twice. cbn [fst]. rewrite ip_vs, ip_vsl. reflexivity. }
  split; [reflexivity|]. split.
  { intros m eu _ H. destruct m as [|row [|row' m]]; [injection H as <-| |discriminate].
    - split; [reflexivity|]. repeat split; intros; simpl in *; lia.
    - injection H as <-. split; [reflexivity|].
      assert (E : forall i, i < 1 -> i = 0) by (intros; lia).
      split; [|split; [|split]].
      + intros i j Hi Hj. rewrite (E i Hi), (E j Hj). destruct row as [|a row]; cbn; ring.
      + intros i j Hi Hj. rewrite (E i Hi), (E j Hj). cbn. ring.
      + intros i j Hi Hj. rewrite (E i Hi), (E j Hj). cbn. ring.
      + intros i j Hij Hj. rewrite (E j Hj) in *. replace i with 0 by lia. cbn. rewrite Rplus_opp_r. apply Rle_refl. }
  split; [exact R_sqrt_total|]. split.
  { intros m Hm _. destruct m as [|row [|row' m]]; [discriminate|discriminate|simpl in Hm; lia]. }
  split. { cbn. destruct (Rlt_dec (IZR 0) (IZR 1)) as [_|N]; [reflexivity|]. exfalso. apply N. exact Rlt_0_1. }
  split; [lia|]. split; [lia|]. split; [lia|]. intros H. injection H as H _. apply eq_IZR in H. discriminate.
Qed.
