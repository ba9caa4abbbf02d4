(** * C54: what [eigsh_lanczos] of the jax backend does not promise *)
From Coq Require Import QArith Qcanon ZArith Lqa.
From Verif Require Import Prelude Algebra Krylov KrylovFacts KrylovSpec KrylovInst KrylovExamples Gmres GmresSpec GmresExamples
  JaxKrylov JaxKrylovSpec JaxKrylovExamples JaxLanczos P_JaxLanczos.
Open Scope nat_scope.

Definition undef {T} (r : out T) : bool := match r with Undef => true | _ => false end.
Definition show2 (r : out (list Q_cfd * list W2 * bool)) : option (list Q * list (list Q) * bool) :=
  match r with Val (vals, xs, warn) => Some (map this vals, map xs2 xs, warn) | _ => None end.

(** An initial state that is an eigenvector gives 0/0: the norm of the second vector, 0, is compared with delta only after
    the division (jitted_functions.py 152-153, 177-181).  The numpy backend returns the eigenpair. *)
Theorem C54_invariant_refuted : exists (A : W2 -> W2) eigh landelta init, hermitian A /\ eigh_contract eigh /\
  A init = vs (z 2) init /\ this (ip init init) = 1%Q /\ (forall reortho, undef (jax_eigsh_lanczos A eigh 2 landelta reortho 1 init) = true) /\
  match lanczos (fun x => (A x, false)) eigh 1 landelta landelta 20 false 2 init with
  | Val (vals, xs, _, _) => map this vals = [2]%Q /\ xs = [init] | _ => False end.
Proof.
  exists (m22 (z 2) (z 0) (z 0) (z 2)), (tbl [([[z 2]], ([z 2], [[z 1]]))]), milli, e_1.
  split; [apply (@rows_herm Q_cfd 2); intros i j Hi Hj; apply ceqb_eq; revert i j Hi Hj; apply all2_ok; vm_compute; reflexivity|].
  split; [apply tbl_eigh; vm_compute; reflexivity|]. split; [apply xs2_inj; vm_compute; reflexivity|]. split; [reflexivity|].
  split; [intros [|]; vm_compute; reflexivity|].
  assert (H : match lanczos (fun x => (m22 (z 2) (z 0) (z 0) (z 2) x, false)) (tbl [([[z 2]], ([z 2], [[z 1]]))]) 1 milli milli 20 false 2 e_1 with
    | Val (vals, xs, _, _) => map this vals = [2]%Q /\ map xs2 xs = [xs2 e_1] | _ => False end) by (vm_compute; auto).
  destruct (lanczos (fun x => (m22 (z 2) (z 0) (z 0) (z 2) x, false)) _ 1 milli milli 20 false 2 e_1) as [[[[vals xs] w0] r]| |]; [|contradiction|contradiction].
  destruct H as [H1 H2]. split; [exact H1|]. destruct xs as [|y [|y' xs]]; try discriminate. f_equal. apply xs2_inj. exact (f_equal (hd []) H2).
Qed.
Print Assumptions C54_invariant_refuted.

(** The lowest eigenvalue found for a positive definite operator is 0, without warning, when |init| <= delta: the loop stops
    after one round, the matrix keeps its zeros, and the vector belonging to them is the residual.  Ten times the initial state
    gives the eigenvalue 1. *)
Theorem C54_scale_refuted : exists (A : W2 -> W2) eigh landelta init, hermitian A /\ eigh_contract eigh /\
  (forall x, x <> vz -> clt r0 (ip x (A x)) = true) /\
  show2 (jax_eigsh_lanczos A eigh 2 landelta false 1 init) = Some ([0]%Q, [[-4 # 5; 3 # 5]]%Q, false) /\
  show2 (jax_eigsh_lanczos A eigh 2 landelta false 1 (vs (z 10) init)) = Some ([1]%Q, [[1; 0]]%Q, false).
Proof.
  exists dA, d2_eig, (zq 1 2), (w2 (zq 3 50) (zq 4 50)). split; [exact dA_herm|]. split; [apply tbl_eigh; vm_compute; reflexivity|].
  split; [exact dA_positive|]. split; vm_compute; reflexivity.
Qed.
Print Assumptions C54_scale_refuted.

(** Two eigenpairs asked for and one round done: numits is 2, so the warning of jax_backend.py 571-576 is not given; the
    eigenvalue 0 is not one of A (which is positive definite), and the two vectors are not orthogonal.  Without reorthogonalisation the vector of the
    eigenvalue 0 is another one. *)
Definition qA : W2 -> W2 := m22 (z 3) (z 4) (z 4) (z 9).
Lemma qA_positive (x : W2) : x <> vz -> clt r0 (ip x (qA x)) = true.
Proof.
  destruct x as [a [b []]]. intros H. apply Q_clt.
  assert (E : (this (ip ((a, (b, tt)) : W2) (qA (a, (b, tt)))) == (3 * this a * this a + 8 * this a * this b + 9 * this b * this b))%Q).
  { unfold qA, m22. cbn -[Qred Qmult Qplus]. rewrite !Qred_correct. cbn -[Qmult Qplus]. ring. }
  change (this (r0 : Q_cfd)) with 0%Q. rewrite E.
  assert (D : ~ (this a == 0)%Q \/ ~ (this b == 0)%Q).
  { destruct (Qeq_dec (this a) 0) as [Ep|Ep]; [|auto]. destruct (Qeq_dec (this b) 0) as [Eq|Eq]; [|auto].
    exfalso. apply H. rewrite (this_0 Ep), (this_0 Eq). reflexivity. }
  generalize dependent (this a). generalize dependent (this b). intros q p _ D.
  pose proof (@sq_nn (3 * p + 4 * q)) as S1. pose proof (@sq_nn (4 * p + 9 * q)) as S2.
  destruct D as [D|D]; apply sq_pos in D; lra.
Qed.
Definition q_eig := tbl [(di 3 0, ([z 0; z 3], [[z 0; z 1]; [z 1; z 0]]))].
Theorem C54_warning_refuted : exists (A : W2 -> W2) eigh landelta init, hermitian A /\ eigh_contract eigh /\
  (forall x, x <> vz -> clt r0 (ip x (A x)) = true) /\
  show2 (jax_eigsh_lanczos A eigh 2 landelta true 2 init) = Some ([0; 3]%Q, [[3 # 5; 4 # 5]; [1; 0]]%Q, false) /\
  show2 (jax_eigsh_lanczos A eigh 2 landelta true 1 init) = Some ([0]%Q, [[3 # 5; 4 # 5]]%Q, false) /\
  show2 (jax_eigsh_lanczos A eigh 2 landelta false 1 init) = Some ([0]%Q, [[0; 1]]%Q, false).
Proof.
  exists qA, q_eig, (zq 1 2), (w2 (zq 1 10) (z 0)).
  split; [apply (@rows_herm Q_cfd 2); intros i j Hi Hj; apply ceqb_eq; revert i j Hi Hj; apply all2_ok; vm_compute; reflexivity|].
  split; [apply tbl_eigh; vm_compute; reflexivity|]. split; [|split; [|split]; vm_compute; reflexivity].
  exact qA_positive.
Qed.
Print Assumptions C54_warning_refuted.

(** With delta >= 1 no round is done at all, whatever the operator: the eigenvalue is 0 and the vector is the initial state. *)
Theorem C54_delta_refuted : exists landelta : Q_cfd, this landelta = 1%Q /\ exists eigh, eigh_contract eigh /\
  forall A : W2 -> W2, show2 (jax_eigsh_lanczos A eigh 2 landelta true 1 e21) = Some ([0]%Q, [[3 # 5; 4 # 5]]%Q, false).
Proof.
  exists (z 1). split; [reflexivity|]. exists (tbl [(di 0 0, ([z 0; z 0], di 1 1))]). split; [apply tbl_eigh; vm_compute; reflexivity|].
  intros A. vm_compute. reflexivity.
Qed.
Print Assumptions C54_delta_refuted.
