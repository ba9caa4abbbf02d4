(** * Proofs about the Ising Hamiltonians *)
From Coq Require Import Lia.
From Verif Require Import Prelude Algebra Tensor TensorFacts MpoSpec WaveSpec Ising IsingSpec.
Set Implicit Arguments.
Unset Strict Implicit.
Open Scope list_scope.
Open Scope nat_scope.

Section Facts.
  Context {R : csr}.
  Variables half mone : R.
  Add Ring Rring : (rsr R).
  Notation h := (transpose (@ising_h R mone) [0; 2; 1; 3]).
  Notation hl := (transpose (@ising_h_last R mone) [0; 2; 1; 3]).
  Notation sgn := (@sign R mone).

  Definition term (z : R) (i j k l : nat) : R :=
    if (k =? 1 - i) && (l =? 1 - j) then mone else if (k =? i) && (l =? j) then z else r0.
  Ltac two x := destruct x as [|[|x]]; [| |lia].
  Lemma h_elt i j k l : i < 2 -> j < 2 -> k < 2 -> l < 2 -> elt h [i; j; k; l] = term (mone *! sgn i) i j k l.
  Proof. intros Hi Hj Hk Hl. two i; two j; two k; two l; cbn; ring. Qed.
  Lemma hl_elt i j k l : i < 2 -> j < 2 -> k < 2 -> l < 2 -> elt hl [i; j; k; l] = term (mone *! sgn i +! mone *! sgn j) i j k l.
  Proof. intros Hi Hj Hk Hl. two i; two j; two k; two l; cbn; ring. Qed.

  Lemma over_same n s : S n < length s -> over s [n; S n] [nth n s 0; nth (S n) s 0] = s.
  Proof.
    intros H. unfold over. transitivity (map (fun j => nth j s 0) (seq 0 (length s))); [|apply (gather_seq 0 s)].
    apply map_ext. intros j. cbn [position]. destruct (Nat.eqb_spec j n) as [->|]; [reflexivity|].
    destruct (Nat.eqb_spec j (S n)) as [->|]; reflexivity.
  Qed.
  Lemma over_flip n s : S n < length s -> over s [n; S n] [1 - nth n s 0; 1 - nth (S n) s 0] = flip [n; S n] s.
  Proof.
    intros H. unfold over, flip. apply map_ext. intros j. cbn [position existsb].
    destruct (Nat.eqb_spec j n) as [->|]; [reflexivity|]. destruct (Nat.eqb_spec j (S n)) as [->|]; reflexivity.
  Qed.

  Lemma act_term (op psi : tensor R) z n s N : spins N s -> S n < N -> shape op = [2; 2; 2; 2] ->
    (forall i j k l, i < 2 -> j < 2 -> k < 2 -> l < 2 -> elt op [i; j; k; l] = term (z i j) i j k l) ->
    elt (act [n; S n] op psi) s = mone *! elt psi (flip [n; S n] s) +! z (nth n s 0) (nth (S n) s 0) *! elt psi s.
  Proof.
    intros [Ls Fs] Hn So V. cbn [act elt]. rewrite So. cbn [skipn length map app].
    assert (Hi : nth n s 0 < 2) by (rewrite Forall_forall in Fs; apply Fs, nth_In; lia).
    assert (Hj : nth (S n) s 0 < 2) by (rewrite Forall_forall in Fs; apply Fs, nth_In; lia).
    assert (E1 : elt psi (flip [n; S n] s) = elt psi (over s [n; S n] [1 - nth n s 0; 1 - nth (S n) s 0])) by (rewrite over_flip by lia; reflexivity).
    assert (E2 : elt psi s = elt psi (over s [n; S n] [nth n s 0; nth (S n) s 0])) by (rewrite over_same by lia; reflexivity).
    rewrite E1, E2. clear E1 E2. set (P := fun xs => elt psi (over s [n; S n] xs)).
    change (lsum (idxs [2; 2]) (fun vs => elt op (nth n s 0 :: nth (S n) s 0 :: vs) *! P vs) =
      mone *! P [1 - nth n s 0; 1 - nth (S n) s 0] +! z (nth n s 0) (nth (S n) s 0) *! P [nth n s 0; nth (S n) s 0]).
    generalize dependent (nth n s 0). generalize dependent (nth (S n) s 0). intros j Hj i Hi.
    change (idxs [2; 2]) with [[0; 0]; [0; 1]; [1; 0]; [1; 1]]. rewrite !lsum_cons, lsum_nil, !V by lia.
    two i; two j; cbn [term Nat.eqb andb Nat.sub]; ring.
  Qed.

  Lemma h_shape : shape h = [2; 2; 2; 2]. Proof. reflexivity. Qed.
  Lemma hl_shape : shape hl = [2; 2; 2; 2]. Proof. reflexivity. Qed.
  Lemma ising_nth N n d : S n < N -> nth n (ising_hamiltonian mone N) d = if S (S n) =? N then hl else h.
  Proof.
    intros H. unfold ising_hamiltonian. destruct (Nat.eqb_spec (S (S n)) N) as [<-|Hne].
    - rewrite app_nth2; rewrite repeat_length; [|lia]. replace (n - (S (S n) - 2)) with 0 by lia. reflexivity.
    - rewrite app_nth1 by (rewrite repeat_length; lia). rewrite (nth_indep _ d h) by (rewrite repeat_length; lia). apply nth_repeat.
  Qed.
  Lemma ising_length N : 2 <= N -> length (ising_hamiltonian mone N) = N - 1.
  Proof. intros H. unfold ising_hamiltonian. rewrite app_length, repeat_length. cbn [length]. lia. Qed.

  Theorem ising_chain N (psi : tensor R) : 2 <= N -> shape psi = repeat 2 N -> chain (ising_hamiltonian mone N) psi.
  Proof.
    intros H S. split; [unfold rank; rewrite ising_length, S, repeat_length by lia; lia|]. intros n g E.
    assert (Hn : n < N - 1) by (rewrite <- ising_length by lia; apply nth_error_Some; rewrite E; discriminate).
    apply (nth_error_nth _ _ h) in E. rewrite ising_nth in E by lia. rewrite S.
    assert (Q : forall k, k < N -> nth k (repeat 2 N) 0 = 2) by (intros k Hk; rewrite (nth_indep _ 0 2) by (rewrite repeat_length; lia); apply nth_repeat).
    rewrite !Q by lia. rewrite <- E. destruct (_ =? _); reflexivity.
  Qed.

  Theorem ising_ok N (psi : tensor R) s d : 2 <= N -> spins N s ->
    nsum (N - 1) (fun n => elt (act [n; S n] (nth n (ising_hamiltonian mone N) d) psi) s) = ising mone N psi s.
  Proof.
    intros H Hs. destruct N as [|[|M]]; try lia. replace (S (S M) - 1) with (S M) by lia. unfold ising. replace (S (S M) - 1) with (S M) by lia.
    rewrite (nsum_S (S M)). rewrite !nsum_S.
    rewrite ising_nth by lia. rewrite Nat.eqb_refl.
    rewrite (@act_term hl psi (fun i j => mone *! sgn i +! mone *! sgn j) M s (S (S M)) Hs) by (try lia; try reflexivity; intros; apply hl_elt; assumption).
    rewrite (@nsum_ext R M _ (fun n => mone *! elt psi (flip [n; S n] s) +! mone *! (sgn (nth n s 0) *! elt psi s))).
    - rewrite nsum_add, !nsum_mul_l. ring.
    - intros n Hn. rewrite ising_nth by lia. replace (S (S n) =? S (S M)) with false by (symmetry; apply Nat.eqb_neq; lia).
      rewrite (@act_term h psi (fun i j => mone *! sgn i) n s (S (S M)) Hs) by (try lia; try reflexivity; intros; apply h_elt; assumption). ring.
  Qed.

  Theorem ham_ising_ok s s' : spins 3 s -> spins 3 s' -> elt (ham_ising half mone) (s ++ s') = ising3 half mone s s'.
  Proof.
    intros [Ls Fs] [Ls' Fs'].
    destruct s as [|a [|b [|c []]]]; try discriminate. destruct s' as [|a' [|b' [|c' []]]]; try discriminate.
    repeat match goal with H : Forall _ (_ :: _) |- _ => apply Forall_cons_iff in H; destruct H end.
    two a; two b; two c; two a'; two b'; two c'; cbv - [radd rmul r0 r1 car]; ring.
  Qed.
  Theorem ham_ising_shape : shape (ham_ising half mone) = [2; 2; 2; 2; 2; 2].
  Proof. reflexivity. Qed.

  Theorem np_kron_ok (a b : tensor R) m n p q i j k l : shape a = [m; n] -> shape b = [p; q] -> k < p -> l < q ->
    shape (np_kron a b) = [m * p; n * q] /\ elt (np_kron a b) [i * p + k; j * q + l] = elt a [i; j] *! elt b [k; l].
  Proof.
    intros Sa Sb Hk Hl. unfold np_kron. cbn [shape elt]. rewrite Sa, Sb. cbn [nth]. split; [reflexivity|].
    rewrite !Nat.div_add_l, !Nat.div_small, !Nat.add_0_r by lia.
    rewrite (Nat.add_comm (i * p)), (Nat.add_comm (j * q)), !Nat.mod_add, !Nat.mod_small by lia. reflexivity.
  Qed.
End Facts.
