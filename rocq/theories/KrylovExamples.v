(** * KrylovExamples: a complex Hermitian matrix with rational Lanczos vectors and eigenvalues *)
From Coq Require Import QArith Qcanon ZArith.
From Verif Require Import Prelude Algebra Krylov KrylovFacts KrylovSpec KrylovInst.
Open Scope nat_scope.

Definition zq (n : Z) (d : positive) : Q_cfd := Q2Qc (n # d).
(** (a + b i) / d *)
Definition ci (a b : Z) (d : positive) : QI_cfd := (zq a d, zq b d).
Definition ceqb {K : cfd} (x y : K) : bool := if cdec x y then true else false.
Lemma ceqb_eq (K : cfd) (x y : K) : ceqb x y = true -> x = y.
Proof. unfold ceqb. destruct (cdec x y); [auto|discriminate]. Qed.
Definition mx_eq_dec {K : cfd} : forall x y : mx K, {x = y} + {x <> y} := list_eq_dec (list_eq_dec (@cdec K)).
Definition all2 (n : nat) (p : nat -> nat -> bool) : bool := forallb (fun i => forallb (p i) (seq 0 n)) (seq 0 n).
Lemma all2_ok n p : all2 n p = true -> forall i j, i < n -> j < n -> p i j = true.
Proof.
  unfold all2. intros H i j Hi Hj. rewrite forallb_forall in H. specialize (H i ltac:(apply in_seq; lia)).
  rewrite forallb_forall in H. apply H, in_seq. lia.
Qed.
(** an oracle for [eigh] that knows one matrix *)
Definition one_eigh {K : cfd} (T : mx K) (eu : list K * mx K) : mx K -> option (list K * mx K) :=
  fun m => if mx_eq_dec m T then Some eu else None.
Definition eigen_okb {K : cfd} (n : nat) (m : mx K) (eu : list K * mx K) : bool :=
  let (th, U) := eu in
  (length th =? n) &&
  all2 n (fun i j => ceqb (nsum n (fun k => ent m i k *! ent U k j)) (nth j th r0 *! ent U i j)) &&
  all2 n (fun i j => ceqb (nsum n (fun k => cj (ent U k i) *! ent U k j)) (delta_ i j)) &&
  all2 n (fun i j => ceqb (nsum n (fun k => ent U i k *! cj (ent U j k))) (delta_ i j)) &&
  all2 n (fun i j => negb (i <=? j) || ceqb (nth j th r0) (nth i th r0) || clt (nth i th r0) (nth j th r0)).
Lemma eigen_okb_ok {K : cfd} n m (eu : list K * mx K) : eigen_okb n m eu = true -> eigen_ok n m eu.
Proof.
  destruct eu as [th U]. unfold eigen_okb. intros H. repeat (apply andb_prop in H; destruct H as [H ?]).
  split; [apply Nat.eqb_eq; assumption|].
  split; [intros i j Hi Hj; apply ceqb_eq; exact (all2_ok _ _ H3 i j Hi Hj)|].
  split; [intros i j Hi Hj; apply ceqb_eq; exact (all2_ok _ _ H2 i j Hi Hj)|].
  split; [intros i j Hi Hj; apply ceqb_eq; exact (all2_ok _ _ H1 i j Hi Hj)|].
  intros i j Hij Hj. pose proof (all2_ok _ _ H0 i j ltac:(lia) Hj) as E. cbv beta in E.
  replace (i <=? j) with true in E by (symmetry; apply Nat.leb_le; exact Hij). cbn [negb orb] in E.
  apply Bool.orb_prop in E. destruct E as [E|E]; [|apply clt_ok in E; exact (proj1 E)].
  apply ceqb_eq in E. rewrite E.
  assert (Z : forall x : K, x +! cop x = r0) by (intros x; exact (Ropp_def (F_R (cfth K)) x)).
  rewrite Z. apply cpos_0.
Qed.
Lemma one_contract {K : cfd} (T : mx K) eu : eigen_okb (length T) T eu = true -> eigh_contract (one_eigh T eu).
Proof.
  intros H m eu' _ E. unfold one_eigh in E. destruct (mx_eq_dec m T) as [->|]; [|discriminate].
  injection E as <-. apply eigen_okb_ok, H.
Qed.

(** [[45, -36i, 48], [36i, 96, 0], [48, 0, 71]] and the vector (2, 0, 0) *)
Definition V3 : ips QI_cfd := tup_ips QI_cfd 3.
Definition ex_mat : list (list QI_cfd) :=
  [[ci 45 0 1; ci 0 (-36) 1; ci 48 0 1]; [ci 0 36 1; ci 96 0 1; ci 0 0 1]; [ci 48 0 1; ci 0 0 1; ci 71 0 1]].
Definition ex_A : V3 -> V3 * bool := fun x => (rows 3 ex_mat x, false).
Definition ex_init : V3 := (ci 2 0 1, (ci 0 0 1, (ci 0 0 1, tt))).
Definition ex_T : mx QI_cfd := [[ci 45 0 1; ci 60 0 1]; [ci 60 0 1; ci 80 0 1]].
Definition ex_eu : list QI_cfd * mx QI_cfd :=
  ([ci 0 0 1; ci 125 0 1], [[ci 4 0 5; ci 3 0 5]; [ci (-3) 0 5; ci 4 0 5]]).
Definition ex_eigh := one_eigh ex_T ex_eu.
Definition ex_run := lanczos ex_A ex_eigh 2 (ci 1 0 1000) (ci 1 0 1000) 20 true 2 ex_init.
Definition show (r : out (list QI_cfd * list V3 * V3 * (list V3 * list QI_cfd * list QI_cfd * ending))) :=
  let f := fun x : QI_cfd => ((this (fst x), this (snd x)))%Q in
  let g := fun x : V3 => [f (fst x); f (fst (snd x)); f (fst (snd (snd x)))] in
  match r with Val (vals, vecs, w0, (kv, dg, nr, e)) => Some (map f vals, map g vecs, g w0, map g kv, map f dg, map f nr, e) | _ => None end.

Lemma ex_herm : hermitian (fun x => fst (ex_A x)).
Proof.
  apply (@rows_herm QI_cfd 3 ex_mat). intros i j Hi Hj. apply ceqb_eq. revert i j Hi Hj. apply all2_ok. vm_compute. reflexivity.
Qed.
Lemma ex_contract : eigh_contract ex_eigh.
Proof. apply one_contract. vm_compute. reflexivity. Qed.
