(** * C50: what GMRES of the jax backend does not promise *)
From Coq Require Import QArith Qcanon ZArith.
From Verif Require Import Prelude Algebra Krylov KrylovFacts KrylovSpec KrylovInst KrylovExamples Gmres GmresSpec GmresExamples.
Open Scope nat_scope.

Definition run (A : W2 -> W2) (b : W2) (tol : Q_cfd) (nkv maxiter : nat) : out (list Q * Q * nat) :=
  obind (jax_gmres A 2 b None tol None nkv maxiter) (fun r => Val (xs2 (fst r), res2 A b (fst r), snd r)).

(** More restarts make the residual larger: [gmres_update] adds the correction to the initial guess, not to the
    current solution (jitted_functions.py 1221). *)
Theorem C50_restart_worse_refuted : exists A b tol, linear A /\
  run A b tol 1 1 = Val ([4 # 25; 0]%Q, (9 # 25)%Q, 0) /\ run A b tol 1 2 = Val ([9 # 25; -(12 # 25)]%Q, (16 # 25)%Q, 1).
Proof.
  exists mA, e_1, milli. split; [apply rows_linear|]. split; vm_compute; reflexivity.
Qed.
Print Assumptions C50_restart_worse_refuted.

(** The identity: maxiter = 1 finds the exact solution, maxiter = 2 throws it away, returns the initial guess 0 and
    reports convergence. *)
Theorem C50_solution_lost_refuted : exists b tol,
  run (fun x => x) b tol 2 1 = Val ([1; 0]%Q, 0%Q, 0) /\ run (fun x => x) b tol 2 2 = Val ([0; 0]%Q, 1%Q, 0).
Proof. exists e_1, milli. split; vm_compute; reflexivity. Qed.
Print Assumptions C50_solution_lost_refuted.

(** info is 0 although the residual is 3/5 and the tolerance 1/1000. *)
Theorem C50_info_refuted : exists A b tol x r, run A b tol 1 1 = Val (x, r, 0) /\ (this tol * this tol < r)%Q.
Proof. exists mA, e_1, milli. do 2 eexists. split; [vm_compute; reflexivity|vm_compute; reflexivity]. Qed.
Print Assumptions C50_info_refuted.

(** A rotation times 1/1000000 has orthogonal columns of one length (condition number 1); the Arnoldi step replaces
    its second Krylov vector by 0 and the triangular system becomes singular. *)
Theorem C50_scaled_rotation_refuted : exists (s : Q_cfd) b tol, s <> r0 /\
  run (m22 (zq 0 1) (cop s) s (zq 0 1)) b tol 2 1 = Undef /\ run (m22 (zq 0 1) (zq (-1) 1) (zq 1 1) (zq 0 1)) b tol 2 1 = Val ([0; -(1)]%Q, 0%Q, 0).
Proof.
  exists (zq 1 1000000), e_1, (zq 1 100000). split; [|split; vm_compute; reflexivity].
  intros H. apply (f_equal this) in H. vm_compute in H. discriminate.
Qed.
Print Assumptions C50_scaled_rotation_refuted.

(** maxiter = 0: the loop body never runs, its variables are unbound. *)
Theorem C50_maxiter0_refuted : exists (A : W2 -> W2) b tol, linear A /\ jax_gmres A 2 b None tol None 2 0 = Err.
Proof. exists mA, e_1, milli. split; [apply rows_linear|vm_compute; reflexivity]. Qed.
Print Assumptions C50_maxiter0_refuted.

(** |b| = 10, tol = 1/10: the residual should be at most tol |b| = 1 (the two Krylov vectors allowed give 0), but the
    loop stops with 6, below tol |b|^2 = 10: the tolerance is multiplied by |b| twice. *)
Theorem C50_tolerance_refuted : exists (A : W2 -> W2) (b : W2) (tol : Q_cfd) x, linear A /\ this (nsq b : Q_cfd) = 100%Q /\ this tol = (1 # 10)%Q /\
  run A b tol 2 1 = Val (x, 36%Q, 0) /\ run A b milli 2 1 = Val ([26 # 5; -(24 # 5)]%Q, 0%Q, 0).
Proof.
  exists (m22 (zq 4 1) (zq 9 4) (zq 3 1) (zq 13 4)), (w2 (zq 10 1) (zq 0 1)), (zq 1 10). eexists. split; [apply rows_linear|].
  split; [vm_compute; reflexivity|]. split; [reflexivity|]. split; vm_compute; reflexivity.
Qed.
Print Assumptions C50_tolerance_refuted.

(** Complex numbers: A e1 = 3i e1 + 5 e2, b = e1, one Krylov vector. The Givens rotation does not conjugate; the result
    3i/16 e1 has the residual (25/16, -15i/16), longer than that of the initial guess 0. *)
Definition X2 : ips QI_cfd := tup_ips QI_cfd 2.
Definition cA : X2 -> X2 := rows 2 [[ci 0 3 1; ci 1 0 1]; [ci 5 0 1; ci 1 0 1]].
Definition c_1 : X2 := (ci 1 0 1, (ci 0 0 1, tt)).
Theorem C50_complex_refuted : exists (A : X2 -> X2) b tol x, linear A /\
  match jax_gmres A 2 b None tol None 1 1 with Val (y, i) => y = x /\ i = 0 | _ => False end /\
  this (fst (fst x)) = 0%Q /\ this (snd (fst x)) = (3 # 16)%Q /\
  this (fst (nsq (vsub b (A x)))) = (425 # 128)%Q /\ this (fst (nsq (vsub b (A vz)))) = 1%Q.
Proof.
  exists cA, c_1, (ci 1 0 1000).
  assert (H : match jax_gmres cA 2 c_1 None (ci 1 0 1000) None 1 1 with
              | Val (x, i) => i = 0 /\ this (fst (fst x)) = 0%Q /\ this (snd (fst x)) = (3 # 16)%Q /\ this (fst (nsq (vsub c_1 (cA x)))) = (425 # 128)%Q
              | _ => False end) by (vm_compute; auto).
  destruct (jax_gmres cA 2 c_1 None (ci 1 0 1000) None 1 1) as [[x i]| |]; [|contradiction|contradiction].
  destruct H as (H1 & H2 & H3 & H4). exists x. split; [apply rows_linear|]. split; [auto|]. repeat (split; [assumption|]). vm_compute. reflexivity.
Qed.
Print Assumptions C50_complex_refuted.
