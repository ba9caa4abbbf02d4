(** * JaxKrylovExamples: oracles that know a few matrices, and 3 x 3 systems with rational factorisations *)
From Coq Require Import QArith Qcanon ZArith Lqa.
From Verif Require Import Prelude Algebra Krylov KrylovFacts KrylovSpec KrylovInst KrylovExamples Gmres GmresSpec GmresExamples JaxKrylov JaxKrylovSpec.
Set Implicit Arguments.
Unset Strict Implicit.
Open Scope nat_scope.

Fixpoint tbl {K : cfd} {T} (l : list (mx K * T)) (m : mx K) : option T :=
  match l with [] => None | (m', r) :: l => if mx_eq_dec m m' then Some r else tbl l m end.
Lemma tbl_in {K : cfd} {T} (l : list (mx K * T)) m r : tbl l m = Some r -> In (m, r) l.
Proof.
  induction l as [|[m' r'] l IH]; cbn [tbl]; [discriminate|]. destruct (mx_eq_dec m m') as [->|]; intros E; [injection E as ->; left; reflexivity|right; auto].
Qed.
Definition qr_okb {K : cfd} (n : nat) (M : mx K) (QR : mx K * mx K) : bool :=
  let (Q, R) := QR in
  all2 n (fun i j => ceqb (nsum n (fun k => cj (ent Q k i) *! ent Q k j)) (delta_ i j)) &&
  all2 n (fun i j => ceqb (nsum n (fun k => ent Q i k *! cj (ent Q j k))) (delta_ i j)) &&
  all2 n (fun i j => ceqb (nsum n (fun k => ent Q i k *! ent R k j)) (ent M i j)) &&
  all2 n (fun i j => negb (j <? i) || ceqb (ent R i j) r0) && all2 n (fun i j => negb (S j <? i) || ceqb (ent Q i j) r0).
Lemma qr_okb_ok {K : cfd} n (M : mx K) QR : qr_okb n M QR = true -> qr_ok n M QR.
Proof.
  destruct QR as [Q R]. unfold qr_okb. intros H. repeat (apply andb_prop in H; destruct H as [H ?]).
  split; [intros i j Hi Hj; apply ceqb_eq; exact (all2_ok _ _ H i j Hi Hj)|].
  split; [intros i j Hi Hj; apply ceqb_eq; exact (all2_ok _ _ H3 i j Hi Hj)|].
  split; [intros i j Hi Hj; apply ceqb_eq; exact (all2_ok _ _ H2 i j Hi Hj)|].
  split.
  - intros i j Hi Hj Hij. pose proof (all2_ok _ _ H1 i j Hi Hj) as E. cbv beta in E. apply Nat.ltb_lt in Hij. rewrite Hij in E. apply ceqb_eq. exact E.
  - intros _ i j Hi Hj Hij. pose proof (all2_ok _ _ H0 i j Hi Hj) as E. cbv beta in E. apply Nat.ltb_lt in Hij. rewrite Hij in E. apply ceqb_eq. exact E.
Qed.
Definition eig_okb {K : cfd} (n : nat) (m : mx K) (eu : list K * mx K) : bool :=
  let (th, U) := eu in
  (length th =? n) && all2 n (fun i j => ceqb (nsum n (fun k => ent m i k *! ent U k j)) (nth j th r0 *! ent U i j)) &&
  all2 n (fun _ j => ceqb (nsum n (fun k => cj (ent U k j) *! ent U k j)) r1).
Lemma eig_okb_ok {K : cfd} n m (eu : list K * mx K) : eig_okb n m eu = true -> eig_ok n m eu.
Proof.
  destruct eu as [th U]. unfold eig_okb. intros H. repeat (apply andb_prop in H; destruct H as [H ?]).
  split; [apply Nat.eqb_eq; assumption|]. split; [intros i j Hi Hj; apply ceqb_eq; exact (all2_ok _ _ H1 i j Hi Hj)|].
  intros j Hj. apply ceqb_eq. exact (all2_ok _ _ H0 j j Hj Hj).
Qed.
Lemma tbl_qr {K : cfd} (l : list (mx K * (mx K * mx K))) : forallb (fun p => qr_okb (length (fst p)) (fst p) (snd p)) l = true -> qr_contract (tbl l).
Proof. intros H m QR E. apply tbl_in in E. rewrite forallb_forall in H. apply qr_okb_ok. exact (H _ E). Qed.
Lemma tbl_eig {K : cfd} (l : list (mx K * (list K * mx K))) : forallb (fun p => eig_okb (length (fst p)) (fst p) (snd p)) l = true -> eig_contract (tbl l).
Proof. intros H m QR E. apply tbl_in in E. rewrite forallb_forall in H. apply eig_okb_ok. exact (H _ E). Qed.
Lemma tbl_eigh {K : cfd} (l : list (mx K * (list K * mx K))) : forallb (fun p => eigen_okb (length (fst p)) (fst p) (snd p)) l = true -> eigh_contract (tbl l).
Proof. intros H m QR _ E. apply tbl_in in E. rewrite forallb_forall in H. apply eigen_okb_ok. exact (H _ E). Qed.

Definition W3 : ips Q_cfd := tup_ips Q_cfd 3.
Definition w3 (a b c : Q_cfd) : W3 := (a, (b, (c, tt))).
Definition z (n : Z) : Q_cfd := zq n 1.
Definition xs3 (x : W3) : list Q := [this (fst x); this (fst (snd x)); this (fst (snd (snd x)))].
(** eigenvalues, eigenvectors, numits, and the flags ar_converged, converged, tie *)
Definition show3 (r : out (list Q_cfd * list W3 * nat * @rcarry Q_cfd W3)) : option (list Q * list (list Q) * nat * (bool * bool * bool)) :=
  match r with
  | Val (vals, xs, n, c) => Some (map this vals, map xs3 xs, n, (r_ar c, r_conv c, r_tie c))
  | _ => None
  end.
(** an operator that is not symmetric; its Arnoldi matrix for e1 and two vectors is [[13, 9], [16, 13]] *)
Definition nsA : W3 -> W3 := rows 3 [[z 13; z 9; z 0]; [z 16; z 13; z 0]; [z 0; z 5; z 1]].
Definition e31 : W3 := w3 (z 1) (z 0) (z 0).
Definition ns_eig := tbl [([[z 13; z 9]; [z 16; z 13]], ([z 1; z 25], [[zq 3 5; zq 3 5]; [zq (-4) 5; zq 4 5]]))].
(** symmetric operators with the Lanczos matrices [[45, 60], [60, 80]] and [[-70, 60], [60, -105]] for e1 *)
Definition sy_mat : list (list Q_cfd) := [[z 45; z 36; z 48]; [z 36; z 96; z 0]; [z 48; z 0; z 71]].
Definition syA : W3 -> W3 := rows 3 sy_mat.
Definition di (a b : Z) : mx Q_cfd := [[z a; z 0]; [z 0; z b]].
Definition sy_eig := tbl [([[z 45; z 60]; [z 60; z 80]], ([z 0; z 125], [[zq 4 5; zq 3 5]; [zq (-3) 5; zq 4 5]]));
  (di 125 0, ([z 0; z 125], [[z 0; z 1]; [z 1; z 0]])); ([[z 125]], ([z 125], [[z 1]]))].
Definition sy_qr := tbl [([[z 45; z 60]; [z 60; z 80]], ([[zq 3 5; zq (-4) 5]; [zq 4 5; zq 3 5]], [[z 75; z 100]; [z 0; z 0]]))].
Definition ng_mat : list (list Q_cfd) := [[z (-70); z (-36); z (-48)]; [z (-36); z (-121); z 0]; [z (-48); z 0; z (-96)]].
Definition ngA : W3 -> W3 := rows 3 ng_mat.
Definition ng_eig := tbl [([[z (-70); z 60]; [z 60; z (-105)]], ([z (-150); z (-25)], [[zq (-3) 5; zq 4 5]; [zq 4 5; zq 3 5]]));
  (di (-25) 0, ([z (-25); z 0], [[z 1; z 0]; [z 0; z 1]])); ([[z (-25)]], ([z (-25)], [[z 1]]))].
Definition ng_qr := tbl [([[z 80; z 60]; [z 60; z 45]], ([[zq 4 5; zq (-3) 5]; [zq 3 5; zq 4 5]], [[z 100; z 75]; [z 0; z 0]]))].
Lemma herm3 (m : list (list Q_cfd)) : all2 3 (fun i j => ceqb (ent m i j) (cj (ent m j i))) = true -> hermitian (V := W3) (rows 3 m).
Proof. intros H. apply (@rows_herm Q_cfd 3 m). intros i j Hi Hj. apply ceqb_eq. revert i j Hi Hj. apply all2_ok. exact H. Qed.
Lemma xs3_inj x y : xs3 x = xs3 y -> x = y.
Proof.
  destruct x as [a [b [c []]]], y as [a' [b' [c' []]]]. unfold xs3. cbn [fst snd]. intros H. injection H as H1 H2 H3.
  rewrite (Qc_is_canon a a'), (Qc_is_canon b b'), (Qc_is_canon c c'); [reflexivity|rewrite H3; reflexivity|rewrite H2; reflexivity|rewrite H1; reflexivity].
Qed.
Lemma sq_nn (q : Q) : (0 <= q * q)%Q.
Proof. nra. Qed.
Lemma sq_pos (q : Q) : ~ (q == 0)%Q -> (0 < q * q)%Q.
Proof. intros H. destruct (Q_dec q 0) as [[C|C]|C]; [nra|nra|contradiction]. Qed.
Lemma Q_clt (x y : Q_cfd) : (this x < this y)%Q -> clt x y = true.
Proof. intros P. cbn [clt Q_cfd]. unfold Qc_ltb. rewrite (proj1 (Qclt_alt x y) P). reflexivity. Qed.
Lemma this_0 (x : Q_cfd) : (this x == 0)%Q -> x = r0.
Proof. intros H. apply Qc_is_canon. rewrite H. reflexivity. Qed.
Lemma ng_negative (x : W3) : x <> vz -> clt (ip x (ngA x)) r0 = true.
Proof.
  destruct x as [a [b [c []]]]. intros H. apply Q_clt.
  assert (E : (this (ip ((a, (b, (c, tt))) : W3) (ngA (a, (b, (c, tt))))) == - ((70 * this a * this a + 121 * this b * this b + 96 * this c * this c + 72 * this a * this b + 96 * this a * this c)))%Q).
  { unfold ngA, ng_mat. cbn -[Qred Qmult Qplus]. rewrite !Qred_correct. cbn -[Qmult Qplus]. ring. }
  change (this (r0 : Q_cfd)) with 0%Q. rewrite E.
  assert (D : ~ (this a == 0)%Q \/ ~ (this b == 0)%Q \/ ~ (this c == 0)%Q).
  { destruct (Qeq_dec (this a) 0) as [Ep|Ep]; [|auto]. destruct (Qeq_dec (this b) 0) as [Eq|Eq]; [|auto]. destruct (Qeq_dec (this c) 0) as [Er|Er]; [|auto].
    exfalso. apply H. rewrite (this_0 Ep), (this_0 Eq), (this_0 Er). reflexivity. }
  generalize dependent (this a). generalize dependent (this b). generalize dependent (this c). intros r q p _ D.
  pose proof (@sq_nn (2 * r + p)) as S1. pose proof (@sq_nn (121 * q + 36 * p)) as S2. pose proof (@sq_nn (46 * p + 36 * q)) as S3. pose proof (@sq_nn (7174 * p + 5808 * r)) as S4.
  destruct D as [D|[D|D]]; apply sq_pos in D.
  - lra.
  - lra.
  - lra.
Qed.
Definition e21 : W2 := w2 (zq 3 5) (zq 4 5).
Definition dA : W2 -> W2 := m22 (zq 1 1) (zq 0 1) (zq 0 1) (zq 26 1).
Lemma dA_positive (x : W2) : x <> vz -> clt r0 (ip x (dA x)) = true.
Proof.
  destruct x as [a [b []]]. intros H. apply Q_clt.
  assert (E : (this (ip ((a, (b, tt)) : W2) (dA (a, (b, tt)))) == (this a * this a + 26 * this b * this b))%Q).
  { unfold dA, m22. cbn -[Qred Qmult Qplus]. rewrite !Qred_correct. cbn -[Qmult Qplus]. ring. }
  change (this (r0 : Q_cfd)) with 0%Q. rewrite E. pose proof (@sq_nn (this a)) as S1. pose proof (@sq_nn (this b)) as S2.
  assert (D : ~ (this a == 0)%Q \/ ~ (this b == 0)%Q).
  { destruct (Qeq_dec (this a) 0) as [Ep|Ep]; [|auto]. destruct (Qeq_dec (this b) 0) as [Eq|Eq]; [|auto].
    exfalso. apply H. rewrite (this_0 Ep), (this_0 Eq). reflexivity. }
  destruct D as [D|D]; apply sq_pos in D; lra.
Qed.
