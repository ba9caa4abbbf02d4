(** * C51: what the eigensolvers of the jax backend do not promise *)
From Coq Require Import QArith Qcanon ZArith.
From Verif Require Import Prelude Algebra Krylov KrylovFacts KrylovSpec KrylovInst KrylovExamples Gmres GmresSpec GmresExamples
  JaxKrylov JaxKrylovSpec JaxKrylovExamples.
Open Scope nat_scope.

Definition undef {T} (r : out T) : bool := match r with Undef => true | _ => false end.

(** [eigsh] of a negative definite operator with which = 'LA' and numeig = 1 returns the eigenvalue 0 as converged, with
    numits = numeig (so without the warning of jax_backend.py 459-464): the last matrix is padded with zeros to
    num_krylov_vecs rows (jitted_functions.py 1058-1063) and 0 is larger than -25. Without a restart the result is -25. *)
Theorem C51_spurious_zero_refuted : exists (A : W3 -> W3) qr eig eps tol init, hermitian A /\ qr_contract qr /\ eigh_contract eig /\
  (forall x, x <> vz -> clt (ip x (A x)) r0 = true) /\
  show3 (jax_eigsh A qr eig eps 2 1 LA tol 3 2 init) = Some ([0]%Q, [[-3 # 5; -12 # 25; -16 # 25]]%Q, 1, (false, true, false)) /\
  show3 (jax_eigsh A qr eig eps 2 1 LA tol 3 1 init) = Some ([-25]%Q, [[4 # 5; -9 # 25; -12 # 25]]%Q, 2, (false, false, false)).
Proof.
  exists ngA, ng_qr, ng_eig, milli, (zq 1 2), e31. split; [apply herm3; vm_compute; reflexivity|].
  split; [apply tbl_qr; vm_compute; reflexivity|]. split; [apply tbl_eigh; vm_compute; reflexivity|]. split; [exact ng_negative|].
  split; vm_compute; reflexivity.
Qed.
Print Assumptions C51_spurious_zero_refuted.

(** The same for a positive definite operator on a small space, num_krylov_vecs = 3 being larger than its dimension 2:
    'SA' takes the zero of the padding and divides the zero vector by its norm; one vector less gives the eigenvalue 1. *)
Definition d_eig := tbl [([[z 17; z 12; z 0]; [z 12; z 10; z 0]; [z 0; z 0; z 0]], ([z 0; z 1; z 26], [[z 0; zq 3 5; zq 4 5]; [z 0; zq (-4) 5; zq 3 5]; [z 1; z 0; z 0]]));
  ([[z 17; z 12]; [z 12; z 10]], ([z 1; z 26], [[zq 3 5; zq 4 5]; [zq (-4) 5; zq 3 5]]))].
Theorem C51_small_space_refuted : exists (A : W2 -> W2) qr eig eps tol init, hermitian A /\ qr_contract qr /\ eigh_contract eig /\
  (forall x, x <> vz -> clt r0 (ip x (A x)) = true) /\
  undef (jax_eigsh A qr eig eps 3 1 SA tol 2 2 init) = true /\
  match jax_eigsh A qr eig eps 2 1 SA tol 2 2 init with Val (vals, xs, n, c) => map this vals = [1]%Q /\ map xs2 xs = [[1; 0]]%Q | _ => False end.
Proof.
  exists dA, (fun _ => None), d_eig, milli, milli, e21.
  split; [apply (@rows_herm Q_cfd 2); intros i j Hi Hj; apply ceqb_eq; revert i j Hi Hj; apply all2_ok; vm_compute; reflexivity|].
  split; [intros m QR E; discriminate|]. split; [apply tbl_eigh; vm_compute; reflexivity|]. split; [exact dA_positive|].
  split; vm_compute; auto.
Qed.
Print Assumptions C51_small_space_refuted.

(** [eigs] reports convergence of 125 with tol = 1/1000 although |A x - 125 x| = 48/5: the test takes the first numeig
    eigenvalues and eigenvectors in the order of [eig], of the matrix that still has all num_krylov_vecs rows
    (jitted_functions.py 644-657, 785). *)
Theorem C51_converged_refuted : exists (A : W3 -> W3) qr eig eps tol init x, linear A /\ qr_contract qr /\ eig_contract eig /\
  match jax_eigs A qr eig eps 2 1 LM tol 3 2 init with
  | Val (vals, xs, n, c) => map this vals = [125]%Q /\ xs = [x] /\ r_conv c = true /\ r_tie c = false
  | _ => False end /\
  this (nsq (vsub (A x) (vs (z 125) x))) = (2304 # 25)%Q /\ this tol = (1 # 1000)%Q /\ this eps = (1 # 1000)%Q.
Proof.
  exists syA, sy_qr, sy_eig, milli, milli, e31, (w3 (zq 3 5) (zq 12 25) (zq 16 25)). split; [apply rows_linear|].
  split; [apply tbl_qr; vm_compute; reflexivity|]. split; [apply tbl_eig; vm_compute; reflexivity|].
  split; [|split; [|split]; vm_compute; reflexivity].
  assert (H : match jax_eigs syA sy_qr sy_eig milli 2 1 LM milli 3 2 e31 with
    | Val (vals, xs, n, c) => map this vals = [125]%Q /\ map xs3 xs = [xs3 (w3 (zq 3 5) (zq 12 25) (zq 16 25))] /\ r_conv c = true /\ r_tie c = false
    | _ => False end) by (vm_compute; auto).
  destruct (jax_eigs syA sy_qr sy_eig milli 2 1 LM milli 3 2 e31) as [[[[vals xs] n] c]| |]; [|contradiction|contradiction].
  destruct H as (H1 & H2 & H3 & H4). split; [exact H1|]. split; [|auto].
  destruct xs as [|y [|y' xs]]; try discriminate. f_equal. apply xs3_inj. exact (f_equal (hd []) H2).
Qed.
Print Assumptions C51_converged_refuted.

(** An invariant subspace met with norm = tol is not reported: the loop stops for norm <= tol, the flag is norm < tol. *)
Theorem C51_invariant_flag_refuted : exists (A : W2 -> W2) v0 tol, linear A /\
  match arnoldi_fact A v0 (repeat vz 2) (mkmx 2 2 (fun _ _ => r0)) 0 2 tol with
  | Val (Vm, H, r, n, it, conv) => this n = 0%Q /\ it = 1 /\ conv = false
  | _ => False end.
Proof.
  exists (m22 (zq 2 1) (zq 0 1) (zq 0 1) (zq 2 1)), e_1, (zq 0 1). split; [apply rows_linear|]. vm_compute. auto.
Qed.
Print Assumptions C51_invariant_flag_refuted.

(** The residual, documented as not normalised, has length 1: here f is (0, 48/5, -36/5) = 12 (0, 4/5, -3/5). *)
Theorem C51_residual_refuted : exists (A : W3 -> W3) v0 tol, linear A /\
  match arnoldi_fact A v0 (repeat vz 2) (mkmx 2 2 (fun _ _ => r0)) 0 2 tol with
  | Val (Vm, H, r, n, it, conv) => this (nsq r) = 1%Q /\ this n = 12%Q
  | _ => False end.
Proof. exists syA, e31, milli. split; [apply rows_linear|]. vm_compute. auto. Qed.
Print Assumptions C51_residual_refuted.

(** An initial state no longer than tol gives nan although it is an eigenvector. *)
Theorem C51_short_state_refuted : exists (A : W3 -> W3) qr eig eps tol init, hermitian A /\ qr_contract qr /\ eigh_contract eig /\
  A init = vs (z 5) init /\ init <> vz /\ undef (jax_eigsh A qr eig eps 2 1 LA tol 3 1 init) = true.
Proof.
  exists (rows 3 [[z 5; z 0; z 0]; [z 0; z 5; z 0]; [z 0; z 0; z 5]]), (fun _ => None), (tbl [(di 0 0, ([z 0; z 0], di 1 1))]), milli, milli, (w3 (zq 1 2000) (z 0) (z 0)).
  split; [apply herm3; vm_compute; reflexivity|]. split; [intros m QR E; discriminate|].
  split; [apply tbl_eigh; vm_compute; reflexivity|]. split; [apply xs3_inj; vm_compute; reflexivity|].
  split; [intros E; apply (f_equal xs3) in E; vm_compute in E; discriminate|]. vm_compute. reflexivity.
Qed.
Print Assumptions C51_short_state_refuted.

(** numeig = num_krylov_vecs: [evals[inds][-0:]] makes every eigenvalue a shift, and the clamped reads give a vector fk
    that is not orthogonal to Vk: from A e1 = 2 e1 + e2 the residual becomes 2 e1 + e2. *)
Theorem C51_all_vectors_refuted : exists (A : W2 -> W2) qr Vm Hm fm, linear A /\ qr_contract qr /\ arnoldi_fac A Vm Hm fm /\
  length (sort_shifts LM 0 [z 2]) = 1 /\
  match shifted_qr qr Vm Hm fm (sort_shifts LM 0 [z 2]) 1 with
  | Val (Vk, Hk, fk) => map xs2 Vk = [[1; 0]]%Q /\ xs2 fm = [0; 1]%Q /\ xs2 fk = [2; 1]%Q
  | _ => False end.
Proof.
  exists (m22 (z 2) (z 0) (z 1) (z 0)), (tbl [([[z 0]], ([[z 1]], [[z 0]]))]), [e_1], [[z 2]], (w2 (z 0) (z 1)).
  split; [apply rows_linear|]. split; [apply tbl_qr; vm_compute; reflexivity|]. split.
  { constructor.
    - intros i j Hi Hj. simpl in Hi, Hj. replace i with 0 by lia. replace j with 0 by lia. apply ceqb_eq. vm_compute. reflexivity.
    - intros j Hj. simpl in Hj. replace j with 0 by lia. apply xs2_inj. vm_compute. reflexivity.
    - intros i Hi. simpl in Hi. replace i with 0 by lia. apply ceqb_eq. vm_compute. reflexivity.
    - intros i j Hi. simpl in Hi. lia. }
  split; [vm_compute; reflexivity|]. vm_compute. auto.
Qed.
Print Assumptions C51_all_vectors_refuted.
