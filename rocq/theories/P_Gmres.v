(** * C50: GMRES of the jax backend *)
From Coq Require Import QArith Qcanon ZArith Reals.
From Verif Require Import Prelude Algebra Krylov KrylovFacts KrylovSpec KrylovInst KrylovExamples Gmres GmresSpec GmresMain GmresTotal GmresSolve GmresExamples.
Open Scope nat_scope.

Section C50.
  Context {K : cfd} {V : ips K}.
  Variable A : V -> V.

  (** Over the real numbers, for a linear operator, one restart adds to x0 the element d of the Krylov space of the
      residual r = b - A x for which |r - A d| is least; the dimension q of that space is the number of steps
      made, at most num_krylov_vectors. *)
  Theorem C50_restart n_kry tol b_norm b x x0 done beta x' k c :
    linear A -> (forall a : K, cj a = a) -> clt tol r0 = false ->
    gmres A b x n_kry x0 tol b_norm = Val (done, beta, x', (k, c)) ->
    not_dropped A (g_v c) (Nat.min k n_kry) ->
    exists d, x' = va x0 d /\ min_residual A (vsub b (A x)) (Nat.min k n_kry) d.
  Proof.
    intros Hl Hr Ht H Hd. destruct (@gmres_ok K V A Hl Hr _ _ _ Ht _ _ _ _ _ _ _ _ H Hd) as (_ & _ & _ & _ & d & H1 & H2 & _).
    exact (ex_intro _ d (conj H1 H2)).
  Qed.

  (** With maxiter = 1: the Krylov vectors are an orthonormal basis of the Krylov space of r = b - A x0; x - x0
      minimises the residual there; when the loop stopped before num_krylov_vectors + 1 steps, the residual of x
      is at most the tolerance times |b| (at most the tolerance if no step was made); beta is |b - A x0|. *)
  Theorem C50_first_restart size b x0 tol atol nkv x beta n_iter done k c :
    linear A -> (forall a : K, cj a = a) -> clt tol r0 = false -> clt atol r0 = false ->
    gmres_m A size b x0 tol atol nkv 1 = Val (x, beta, n_iter, done, (k, c)) ->
    not_dropped A (g_v c) (Nat.min k (Nat.min nkv size)) ->
    n_iter = 0 /\ exists b_norm, first_restart_spec A size b x0 (gmres_tol tol atol b_norm) nkv k (g_v c) b_norm beta x.
  Proof. intros Hl Hr. exact (@first_restart K V A Hl Hr size b x0 tol atol nkv x beta n_iter done k c). Qed.

  (** The solution is exact when the Krylov space is invariant. *)
  Theorem C50_exact size b x0 tol atol nkv x beta n_iter done k c m :
    linear A -> (forall a : K, cj a = a) -> clt tol r0 = false -> clt atol r0 = false ->
    gmres_m A size b x0 tol atol nkv 1 = Val (x, beta, n_iter, done, (k, c)) ->
    not_dropped A (g_v c) (Nat.min k (Nat.min nkv size)) ->
    m <= Nat.min k (Nat.min nkv size) -> in_span (krylov A (vsub b (A x0)) m) (Nat.iter m A (vsub b (A x0))) -> A x = b.
  Proof. intros Hl Hr. exact (@first_exact K V A Hl Hr size b x0 tol atol nkv x beta n_iter done k c m). Qed.

  Theorem C50_reject size b x0 tol atol nkv maxiter :
    clt tol r0 = true \/ (exists a, atol = Some a /\ clt a r0 = true) \/ nkv = 0 \/ size = 0 ->
    jax_gmres A size b x0 tol atol nkv maxiter = Err.
  Proof. exact (@jax_gmres_reject K V A size b x0 tol atol nkv maxiter). Qed.
End C50.
Print Assumptions C50_restart.
Print Assumptions C50_first_restart.
Print Assumptions C50_exact.
Print Assumptions C50_reject.

(** the rotation of column k removes the entry below the diagonal *)
Theorem C50_rotation (K : cfd) (col : list K) givens k col' givens' :
  apply_givens_rotation col givens k = Val (col', givens') -> nth (S k) col' r0 = r0.
Proof. exact (@rotation_zero K col givens k col' givens'). Qed.
Print Assumptions C50_rotation.
Example C50_rotation_ex : exists col' g', apply_givens_rotation (K := Q_cfd) [zq 3 1; zq 4 1; zq 0 1] [(r0, r0)] 0 = Val (col', g') /\
  nth 0 col' r0 = zq 5 1 /\ nth 1 col' r0 = r0.
Proof. eexists. eexists. split; [vm_compute; reflexivity|]. split; apply Qc_is_canon; vm_compute; reflexivity. Qed.

(** For arrays with n entries, an injective operator, tolerance 0 and n Krylov vectors: the system is solved. *)
Theorem C50_solves (K : cfd) n (A : tup_ips K n -> tup_ips K n) b x0 nkv :
  (forall a : K, cj a = a) -> (forall x : K, cpos x -> csqrt x <> None) -> linear A -> (forall x, A x = vz -> x = vz) ->
  0 < n -> n <= nkv -> exists x, jax_gmres A n b x0 r0 None nkv 1 = Val (x, 0) /\ A x = b.
Proof. intros Hr Hs Hl Hi. exact (@jax_gmres_solves K Hr Hs n A Hl Hi b x0 nkv). Qed.
Print Assumptions C50_solves.

(** one Krylov vector for a 2 x 2 system, solution (4/25, 0) with residual 3/5 *)
Example C50_first_restart_ex : linear mA /\ (forall a : Q_cfd, cj a = a) /\ clt milli r0 = false /\
  exists x beta n_iter done k c, gmres_m mA 2 e_1 vz milli milli 1 1 = Val (x, beta, n_iter, done, (k, c)) /\
    not_dropped mA (g_v c) (Nat.min k 1) /\ xs2 x = [4 # 25; 0]%Q /\ res2 mA e_1 x = (9 # 25)%Q /\ k = 2.
Proof.
  split; [apply rows_linear|]. split; [reflexivity|]. split; [vm_compute; reflexivity|].
  assert (H : match gmres_m mA 2 e_1 vz milli milli 1 1 with
              | Val (x, beta, n_iter, done, (k, c)) => xs2 (nth 1 (g_v c) vz) = [0; 1]%Q /\ xs2 x = [4 # 25; 0]%Q /\ res2 mA e_1 x = (9 # 25)%Q /\ k = 2
              | _ => False end) by (vm_compute; auto).
  destruct (gmres_m mA 2 e_1 vz milli milli 1 1) as [[[[[x beta] n_iter] done] [k c]]| |]; [|contradiction|contradiction].
  destruct H as (H1 & H2 & H3 & H4). exists x, beta, n_iter, done, k, c. split; [reflexivity|]. split.
  - intros j Hj. replace j with 0 by lia. intros Q. exfalso. rewrite Q in H1. vm_compute in H1. discriminate.
  - auto.
Qed.
(** an eigenvector as right-hand side: the Krylov space of dimension 1 is invariant, mA x = b *)
Definition v34 : W2 := w2 (zq 3 1) (zq (-4) 1).
Example C50_exact_ex : exists x beta n_iter done k c, gmres_m mA 2 v34 vz milli milli 2 1 = Val (x, beta, n_iter, done, (k, c)) /\
    not_dropped mA (g_v c) (Nat.min k 2) /\ 1 <= Nat.min k 2 /\
    in_span (krylov mA (vsub v34 (mA vz)) 1) (Nat.iter 1 mA (vsub v34 (mA vz))) /\ xs2 x = [3; -(4)]%Q.
Proof.
  assert (H : match gmres_m mA 2 v34 vz milli milli 2 1 with
              | Val (x, beta, n_iter, done, (k, c)) => k = 1 /\ xs2 (nth 0 (g_v c) vz) = xs2 (mA (nth 0 (g_v c) vz)) /\ length (g_v c) = 3 /\ xs2 x = [3; -(4)]%Q
              | _ => False end) by (vm_compute; auto).
  destruct (gmres_m mA 2 v34 vz milli milli 2 1) as [[[[[x beta] n_iter] done] [k c]]| |]; [|contradiction|contradiction].
  destruct H as (H1 & H2 & H3 & H4). exists x, beta, n_iter, done, k, c. subst k. split; [reflexivity|]. split; [|split; [cbn; lia|split; [|exact H4]]].
  - intros j Hj. replace j with 0 by lia. intros _. rewrite in_span_firstn by lia. apply xs2_inj in H2. rewrite <- H2. apply (@spanf_in Q_cfd W2 1 (fun i => nth i (g_v c) vz) 0). lia.
  - exists (fun _ => zq 1 1). apply xs2_inj. vm_compute. reflexivity.
Qed.
(** the hypotheses of [C50_solves] over the real numbers *)
Definition halve : tup_ips R_cfd 2 -> tup_ips R_cfd 2 := vs (Rinv (IZR 2) : R_cfd).
Example C50_solves_ex : (forall a : R_cfd, cj a = a) /\ (forall x : R_cfd, cpos x -> csqrt x <> None) /\ linear halve /\
  (forall x, halve x = vz -> x = vz) /\ 0 < 2 /\ 2 <= 20.
Proof.
  split; [reflexivity|]. split; [exact R_sqrt_total|]. split; [|split; [|lia]].
  - split.
    + intros x y. unfold halve. apply vec_ext. intros z. rewrite ip_vs, !ip_add, !ip_vs. exact (Rmult_plus_distr_l _ _ _).
    + intros a x. unfold halve. rewrite !vs_mul. f_equal. exact (Rmult_comm _ _).
  - intros x H. rewrite <- (vs_1 x).
    replace (r1 : R_cfd) with (rmul (IZR 2 : R_cfd) (Rinv (IZR 2) : R_cfd)).
    + rewrite <- vs_mul. unfold halve in H. rewrite H. apply vec_ext. intros z. rewrite ip_vs, !ip_0. exact (Rmult_0_r _).
    + apply Rinv_r. intros Q. apply eq_IZR in Q. discriminate.
Qed.
(** the hypotheses of [C50_restart] hold in a second restart, whose Krylov space is that of b - mA x with x = (4/25, 0) *)
Example C50_restart_ex : exists done beta x' k c, gmres mA e_1 (w2 (zq 4 25) (zq 0 1)) 1 vz milli r1 = Val (done, beta, x', (k, c)) /\
  not_dropped mA (g_v c) (Nat.min k 1) /\ xs2 x' = [9 # 25; -(12 # 25)]%Q.
Proof.
  assert (H : match gmres mA e_1 (w2 (zq 4 25) (zq 0 1)) 1 vz milli r1 with
              | Val (done, beta, x', (k, c)) => k = 1 /\ xs2 (nth 0 (g_v c) vz) = xs2 (mA (nth 0 (g_v c) vz)) /\ length (g_v c) = 2 /\ xs2 x' = [9 # 25; -(12 # 25)]%Q
              | _ => False end) by (vm_compute; auto).
  destruct (gmres mA e_1 (w2 (zq 4 25) (zq 0 1)) 1 vz milli r1) as [[[[done beta] x'] [k c]]| |]; [|contradiction|contradiction].
  destruct H as (H1 & H2 & H3 & H4). exists done, beta, x', k, c. subst k. split; [reflexivity|]. split; [|exact H4].
  intros j Hj. replace j with 0 by lia. intros _. rewrite in_span_firstn by lia. apply xs2_inj in H2. rewrite <- H2. apply (@spanf_in Q_cfd W2 1 (fun i => nth i (g_v c) vz) 0). lia.
Qed.
Example C50_reject_ex : jax_gmres mA 2 e_1 None (zq (-1) 1) None 20 1 = Err.
Proof. exact (@C50_reject Q_cfd W2 mA 2 e_1 None (zq (-1) 1) None 20 1 (or_introl eq_refl)). Qed.
