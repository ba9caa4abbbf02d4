(** * Refutations for the backend routines *)
From Coq Require Import ZArith.
From Verif Require Import Prelude Res Algebra Tensor Backends BackendSpec BackendMain DecompFacts.
Set Implicit Arguments.
Unset Strict Implicit.

(** The einsum path of the NumPy backend compares axis numbers without normalising them: for
    axes [[0, -1], [-1, 0]] it silently computes sum a[i,j] b[i,j] instead of sum a[i,j] b[j,i]. *)
Theorem C15_numpy_mixed_refuted : exists (a b : tensor Z_csr) za zb ax bx c,
  Forall2 (names (rank a)) za ax /\ Forall2 (names (rank b)) zb bx /\ contractible a b (combine ax bx) /\
  np_tensordot 26 a b za zb = Ok c /\ ~ teq c (contraction a b (combine ax bx)).
Proof.
  set (a := of_list (R := Z_csr) [2; 2] [1; 2; 3; 4]%Z).
  exists a, a, [0; -1]%Z, [-1; 0]%Z, [0; 1], [1; 0].
  destruct (np_tensordot 26 a a [0; -1]%Z [-1; 0]%Z) as [c| |] eqn:E; [|exfalso; vm_compute in E; discriminate | exfalso; vm_compute in E; discriminate].
  exists c.
  split; [repeat constructor; unfold names; cbn; lia|]. split; [repeat constructor; unfold names; cbn; lia|].
  split; [|split].
  - split; [|split]; try (repeat constructor; cbn; intuition discriminate).
    intros i j Hi. cbn in Hi. repeat destruct Hi as [Hi|Hi]; try contradiction; injection Hi as <- <-; cbn; lia.
  - reflexivity.
  - intros [H0 H]. assert (elt c [] = 30%Z) as Hc.
    { transitivity (match np_tensordot 26 a a [0; -1]%Z [-1; 0]%Z with Ok c => elt c [] | _ => 0%Z end); [rewrite E; reflexivity | vm_compute; reflexivity]. }
    rewrite H in Hc by (rewrite H0; constructor). vm_compute in Hc. discriminate.
Qed.
Print Assumptions C15_numpy_mixed_refuted.

(** two arrays of rank 0 cannot be contracted over no axes *)
Theorem C15_numpy_rank0_refuted : exists a b : tensor Z_csr,
  contractible a b (combine [] []) /\ np_tensordot 26 a b [] [] = Raise.
Proof.
  exists (of_list (R := Z_csr) [] [2]%Z), (of_list (R := Z_csr) [] [3]%Z). split; [|reflexivity].
  split; [constructor|]. split; [constructor|]. intros i j [].
Qed.
Print Assumptions C15_numpy_rank0_refuted.

(** complete inner products of more than 26 axes raise: the code has 26 labels *)
Theorem C15_numpy_letters_refuted : exists (a b : tensor Z_csr) ax,
  contractible a b (combine ax ax) /\ np_tensordot 26 a b (map Z.of_nat ax) (map Z.of_nat ax) = Raise.
Proof.
  set (a := of_list (R := Z_csr) (repeat 1 27) [2]%Z).
  exists a, a, (seq 0 27). split; [|vm_compute; reflexivity].
  assert (forall s n, map fst (combine (seq s n) (seq s n)) = seq s n /\ map snd (combine (seq s n) (seq s n)) = seq s n) as E.
  { intros s n. revert s. induction n; intros s; cbn; [auto|]. destruct (IHn (S s)) as [-> ->]. auto. }
  destruct (E 0 27) as [E1 E2]. split; [rewrite E1; apply seq_NoDup|]. split; [rewrite E2; apply seq_NoDup|].
  intros i j Hi. assert (i = j) as <-.
  { assert (forall s n, In (i, j) (combine (seq s n) (seq s n)) -> i = j) as F.
    { intros s n. revert s. induction n; intros s H; [destruct H|]. destruct H as [H|H]; [injection H; congruence | eapply IHn; exact H]. }
    eapply F. exact Hi. }
  apply in_combine_l in Hi. apply in_seq in Hi. change (rank a) with 27. split; [lia|]. split; [lia | reflexivity].
Qed.
Print Assumptions C15_numpy_letters_refuted.

(** the TensorFlow implementation compares only the product of the contracted dimensions: it accepts
    axis pairs of different dimensions, which [np.tensordot] refuses *)
Theorem C15_tensordot2_dims_refuted : exists (a b : tensor Z_csr) ax bx c,
  tensordot2 a b ax bx = Ok c /\ np_tensordot_general a b ax bx = Raise.
Proof.
  set (a := of_list (R := Z_csr) [2; 3] [1; 2; 3; 4; 5; 6]%Z). set (b := of_list (R := Z_csr) [3; 2] [1; 2; 3; 4; 5; 6]%Z).
  exists a, b, [0; 1]%Z, [0; 1]%Z.
  destruct (tensordot2 a b [0; 1]%Z [0; 1]%Z) as [c| |] eqn:E; [|exfalso; vm_compute in E; discriminate | exfalso; vm_compute in E; discriminate].
  exists c. split; [reflexivity | vm_compute; reflexivity].
Qed.
Print Assumptions C15_tensordot2_dims_refuted.

(** phase fixing with a zero on the diagonal of r destroys the product: the 1 x 2 matrix (0 1) *)
Theorem C14_zero_diagonal_refuted : exists sign qrf (t q0 r0' : tensor Z_csr),
  qrf (as_matrix (R := Z_cjr) t 1) = (q0, r0') /\ is_qr (R := Z_cjr) (as_matrix (R := Z_cjr) t 1) q0 r0' /\ is_sign (R := Z_cjr) sign /\
  (let '(q, r) := qr (R := Z_cjr) true sign qrf t 1 true in bond_product (R := Z_cjr) 1 q r [0] [1] <> elt t [0; 1]).
Proof.
  set (t := of_list (R := Z_csr) [1; 2] [0; 1]%Z). set (q := of_list (R := Z_csr) [1; 1] [1]%Z).
  exists Z.sgn, (fun _ => (q, t)), t, q, t. split; [reflexivity|]. split; [|split].
  - split; [reflexivity|]. split; [reflexivity|]. intros i j Hi Hj. cbn in Hi, Hj.
    destruct i as [|i]; [|exfalso; lia]. destruct j as [|[|j]]; [| |exfalso; lia]; vm_compute; reflexivity.
  - split; [reflexivity|]. intros x Hx. change (Z.sgn x * Z.sgn x = 1)%Z. change (x <> 0%Z) in Hx. destruct x; cbn; congruence.
  - vm_compute. discriminate.
Qed.
Print Assumptions C14_zero_diagonal_refuted.

(** without conjugating the phases of r (TensorFlow), a complex diagonal changes the product: the
    1 x 1 matrix (i) with q = (1), r = (i) *)
Theorem C14_tensorflow_phases_refuted : exists sign qrf (t q0 r0' : tensor G_csr),
  qrf (as_matrix (R := G_cjr) t 1) = (q0, r0') /\ is_qr (R := G_cjr) (as_matrix (R := G_cjr) t 1) q0 r0' /\
  is_sign (R := G_cjr) sign /\ elt r0' [0; 0] <> (0, 0)%Z /\
  (let '(q, r) := qr (R := G_cjr) false sign qrf t 1 true in bond_product (R := G_cjr) 1 q r [0] [0] <> elt t [0; 0]).
Proof.
  set (t := of_list (R := G_csr) [1; 1] [(0, 1)]%Z). set (q := of_list (R := G_csr) [1; 1] [(1, 0)]%Z).
  set (sign := fun x : Z * Z => if (Z.eqb (fst x) 0 && Z.eqb (snd x) 0)%bool then (0, 0)%Z
                                else if Z.eqb (fst x * fst x + snd x * snd x) 1 then x else (1, 0)%Z).
  exists sign, (fun _ => (q, t)), t, q, t. split; [reflexivity|]. split; [|split; [|split]].
  - split; [reflexivity|]. split; [reflexivity|]. intros i j Hi Hj. cbn in Hi, Hj.
    destruct i as [|i]; [|exfalso; lia]. destruct j as [|j]; [|exfalso; lia]; vm_compute; reflexivity.
  - split; [reflexivity|]. intros [x y] Hx. change ((x, y) <> (0, 0)%Z) in Hx.
    change (gmul (sign (x, y)) (fst (sign (x, y)), - snd (sign (x, y)))%Z = (1, 0)%Z). unfold sign. cbn [fst snd].
    destruct (Z.eqb_spec x 0) as [->|Hx0]; destruct (Z.eqb_spec y 0) as [->|Hy0]; cbn [andb]; try congruence;
      match goal with |- context [Z.eqb ?e 1] => destruct (Z.eqb_spec e 1) as [H1|H1] end; try reflexivity;
      unfold gmul; cbn [fst snd]; f_equal; lia.
  - discriminate.
  - vm_compute. discriminate.
Qed.
Print Assumptions C14_tensorflow_phases_refuted.
