(** * MpsInfExample: an infinite state over the real numbers, with oracles that factorise diagonal matrices *)
From Coq Require Import List ZArith Lia Permutation Reals Lra.
From Verif Require Import Prelude Res Algebra Tensor TensorFacts ListFacts BlockSparse Backends DecompFacts
  Mps MpsSpec MpsNcon MpsState MpsInf MpsInfSpec MpsInfNcon MpsInfFacts KrylovInst.
Import ListNotations.
Set Implicit Arguments.
Unset Strict Implicit.
Local Open Scope nat_scope.

Notation K := Rb_cjr.
Notation tns := (Tensor.tensor K).
Delimit Scope R_scope with re.

(** matrices that are not diagonal, other shapes than 2 x 2: the oracles raise *)
Definition diag2 (p q : R) : tns := Tensor (R := K) [2; 2] (fun ix => match ix with [0; 0] => p | [1; 1] => q | _ => 0%re end).
Definition is_diag (m : tns) : bool :=
  if list_eq_dec Nat.eq_dec (shape m) [2; 2] then
    if Req_EM_T (elt m [0; 1]) 0 then if Req_EM_T (elt m [1; 0]) 0 then true else false else false
  else false.
Definition ex_eigh (m : tns) : res (list K * tns) := if is_diag m then Ok ([elt m [0; 0]; elt m [1; 1]], diag2 1 1) else Raise.
Definition ex_svd (m : tns) : res (tns * list K * tns) :=
  if is_diag m then Ok (diag2 1 1, [elt m [0; 0]; elt m [1; 1]], diag2 1 1) else Raise.
Definition ex_inv (m : tns) : res tns :=
  if is_diag m then
    if Req_EM_T (elt m [0; 0]) 0 then Raise else if Req_EM_T (elt m [1; 1]) 0 then Raise
    else Ok (diag2 (1 / elt m [0; 0]) (1 / elt m [1; 1]))
  else Raise.
Definition ex_qr (m : tns) : res (tns * tns) := Raise.
(** tries two diagonal matrices *)
Definition dvec (p q : R) : tns := Tensor (R := K) [4] (fun ix => match ix with [0] => p | [3] => q | _ => 0%re end).
Definition try_vec (f : tns -> res tns) (p q : R) : res (K * tns) :=
  match f (dvec p q) with
  | Ok z =>
      if list_eq_dec Nat.eq_dec (shape z) [4] then
      if Req_EM_T (elt z [1]) 0 then if Req_EM_T (elt z [2]) 0 then if Req_EM_T (elt z [0] * q) (elt z [3] * p) then
      if Rlt_dec 0 (elt z [0] / p) then Ok ((elt z [0%nat] / p)%re, dvec p q) else Raise else Raise else Raise else Raise else Raise
  | _ => Raise
  end.
Definition ex_eigs (f : tns -> res tns) (v0 : tns) : res (K * tns) :=
  if list_eq_dec Nat.eq_dec (shape v0) [4] then
    match try_vec f 1 1 with Ok r => Ok r | _ => try_vec f 9 16 end
  else Raise.
Definition ex_rnd (n : nat) : tns := Tensor (R := K) [n] (fun _ => 1%re).
Definition ex_nrm (t : tns) : K := sqrt (lsum (R := K) (idxs (shape t)) (fun ix => (elt t ix * elt t ix)%re)).
Definition ex_div (x y : K) : K := (x / y)%re.
Definition ex_keep (rel : bool) (D : option nat) (err : option R) (s : list K) : nat := length s.
Definition ex_le (x y : K) : bool := if Rle_dec x y then true else false.
Definition ex_isz (x : K) : bool := if Req_EM_T x 0 then true else false.
Definition ex_ge1 (e : R) : bool := if Rle_dec 1 e then true else false.

(** one site: [A[a, s, b]] is 3/5 or 4/5, depending on [a], if [a + s + b] is odd *)
Definition exA : tns := Tensor (R := K) [2; 2; 2] (fun ix =>
  match ix with
  | [0; 0; 1] | [0; 1; 0] => (3 / 5)%re
  | [1; 0; 0] | [1; 1; 1] => (4 / 5)%re
  | _ => 0%re
  end).
Definition ex_state (conn : option tns) : imps K := IMPS (MPS [exA] (Some 0)) conn.
Definition ex_canonicalize : imps K -> res (imps K * K) :=
  canonicalize (fun l => l) ex_qr ex_svd ex_keep ex_ge1 ex_nrm ex_div ex_eigs ex_rnd ex_eigh ex_inv sqrt Rabs ex_le ex_isz None None None None 0%re.

Lemma is_diag_spec (m : tns) : is_diag m = true -> shape m = [2; 2] /\ elt m [0; 1] = 0%re /\ elt m [1; 0] = 0%re.
Proof.
  unfold is_diag. destruct (list_eq_dec _ _ _) as [H|]; [|discriminate]. destruct (Req_EM_T _ _); [|discriminate]. destruct (Req_EM_T _ _); [|discriminate]. auto.
Qed.
Lemma is_diag_true (m : tns) : shape m = [2; 2] -> elt m [0; 1] = 0%re -> elt m [1; 0] = 0%re -> is_diag m = true.
Proof.
  intros H1 H3 H4. unfold is_diag. destruct (list_eq_dec _ _ _) as [H|H]; [|contradiction]. destruct (Req_EM_T _ _); [|contradiction]. destruct (Req_EM_T _ _); [|contradiction]. reflexivity.
Qed.
Lemma valid1_inv ix n : valid ix [n] -> exists i, ix = [i] /\ i < n.
Proof. intros H. inversion H as [|? ? ? ? H1 H3]; subst. inversion H3; subst. eauto. Qed.
Lemma two (P : nat -> Prop) : P 0 -> P 1 -> forall i, i < 2 -> P i.
Proof. intros H0 H1 i Hi. destruct i as [|[|i]]; [exact H0 | exact H1 | lia]. Qed.

(** equations of real numbers *)
Ltac real := cbn in *; change (car Rb_csr) with R in *.
Ltac small i := destruct i as [|[|i]]; [| |lia].

Lemma ex_svd_ok : svd_ok (R := K) ex_svd.
Proof.
  intros m u s v Hm H. unfold ex_svd in H. destruct (is_diag m) eqn:Dm; [|discriminate]. apply is_diag_spec in Dm. destruct Dm as (S & Z1 & Z2). injection H as <- <- <-.
  split; [|split].
  - unfold is_svd, DecompFacts.rows, DecompFacts.cols. rewrite S. cbn. split; [reflexivity|]. split; [reflexivity|]. split; [reflexivity|]. intros i j Hi Hj. small i; small j; real; rewrite ?Z1, ?Z2; first [ring | symmetry; ring].
  - unfold orthonormal_cols, DecompFacts.rows. rewrite S. cbn. intros i j Hi Hj. small i; small j; real; ring.
  - unfold orthonormal_rows, DecompFacts.cols. rewrite S. cbn. intros i j Hi Hj. small i; small j; real; ring.
Qed.
Lemma ex_eigh_ok : eigh_ok (R := K) ex_eigh.
Proof.
  intros m w u n Hm Hh H. unfold ex_eigh in H. destruct (is_diag m) eqn:Dm; [|discriminate]. apply is_diag_spec in Dm. destruct Dm as (S & Z1 & Z2). injection H as <- <-.
  rewrite S in Hm. injection Hm as <-. split; [reflexivity|]. split; [reflexivity|]. split; [intros x _; reflexivity|].
  repeat split; intros i j Hi Hj; small i; small j; real; rewrite ?Z1, ?Z2; first [ring | symmetry; ring].
Qed.
Lemma ex_inv_ok : inv_ok (R := K) ex_inv.
Proof.
  intros m y n Hm H. unfold ex_inv in H. destruct (is_diag m) eqn:Dm; [|discriminate]. apply is_diag_spec in Dm. destruct Dm as (S & Z1 & Z2).
  destruct (Req_EM_T _ _) as [|N0] in H; [discriminate|]. destruct (Req_EM_T _ _) as [|N1] in H; [discriminate|]. injection H as <-.
  rewrite S in Hm. injection Hm as <-. split; [reflexivity|]. intros i j Hi Hj. small i; small j; split; real; rewrite ?Z1, ?Z2; field; auto.
Qed.
Lemma ex_qr_ok : qr_ok (R := K) ex_qr.
Proof. intros m q r _ H. discriminate. Qed.
Lemma ex_div_ok : div_ok (R := K) ex_div.
Proof. intros x z H. unfold ex_div. real. field. exact H. Qed.
Lemma try_vec_spec f p q eta y : try_vec f p q = Ok (eta, y) -> p <> 0%re -> q <> 0%re ->
  y = dvec p q /\ (0 < eta)%re /\ exists z, f y = Ok z /\ shape z = [4] /\ forall ix, valid ix [4] -> elt z ix = (eta * elt y ix)%re.
Proof.
  unfold try_vec. intros H Hp Hq. destruct (f (dvec p q)) as [z| |] eqn:Ef; [|discriminate..].
  destruct (list_eq_dec _ _ _) as [S|]; [|discriminate]. destruct (Req_EM_T _ _) as [Z1|]; [|discriminate]. destruct (Req_EM_T _ _) as [Z2|]; [|discriminate].
  destruct (Req_EM_T _ _) as [Z3|]; [|discriminate]. destruct (Rlt_dec _ _) as [L|]; [|discriminate]. injection H as <- <-.
  split; [reflexivity|]. split; [exact L|]. exists z. split; [exact Ef|]. split; [exact S|]. intros ix V. apply valid1_inv in V. destruct V as (i & -> & Hi).
  destruct i as [|[|[|[|i]]]]; [| | | |lia]; real.
  - symmetry. field. exact Hp.
  - rewrite Z1. ring.
  - rewrite Z2. ring.
  - apply (Rmult_eq_reg_r p); [|exact Hp]. rewrite <- Z3. field. exact Hp.
Qed.
Lemma ex_eigs_spec f v0 eta y : ex_eigs f v0 = Ok (eta, y) -> shape v0 = [4] /\ (y = dvec 1 1 \/ y = dvec 9 16) /\ (0 < eta)%re /\
  exists z, f y = Ok z /\ shape z = [4] /\ forall ix, valid ix [4] -> elt z ix = (eta * elt y ix)%re.
Proof.
  unfold ex_eigs. intros H. destruct (list_eq_dec _ _ _) as [S|]; [|discriminate]. split; [exact S|].
  destruct (try_vec f 1 1) as [[eta' y']| |] eqn:T1.
  - injection H as <- <-. destruct (try_vec_spec T1) as (-> & L & X); [lra..|]. auto.
  - destruct (try_vec_spec H) as (-> & L & X); [lra..|]. auto.
  - destruct (try_vec_spec H) as (-> & L & X); [lra..|]. auto.
Qed.
Lemma ex_eigs_ok : eigs_ok (R := K) ex_eigs.
Proof.
  intros f v0 eta y H. apply ex_eigs_spec in H. destruct H as (S & Y & _ & z & Ef & Sz & X).
  assert (shape y = [4]) as Sy by (destruct Y as [-> | ->]; reflexivity). split; [congruence|]. exists z, eta. split; [exact Ef|]. split; [congruence|]. rewrite Sy. exact X.
Qed.
Lemma sum_sq_pos (t : tns) (l : list (list nat)) : (0 <= lsum (R := K) l (fun ix => (elt t ix * elt t ix)%re))%re.
Proof.
  induction l as [|ix l IH]; [cbn; lra|]. rewrite lsum_cons. cbn in *. pose proof (Rle_0_sqr (elt t ix)) as Q. unfold Rsqr in Q. lra.
Qed.
Lemma sum_sq_zero (t : tns) (l : list (list nat)) : lsum (R := K) l (fun ix => (elt t ix * elt t ix)%re) = 0%re -> forall ix, In ix l -> elt t ix = 0%re.
Proof.
  induction l as [|jx l IH]; intros H ix I; [destruct I|]. rewrite lsum_cons in H.
  destruct (Rplus_eq_R0 _ _ (Rle_0_sqr (elt t jx)) (sum_sq_pos t l) H) as [H0 H1].
  destruct I as [<-|I]; [apply Rsqr_0_uniq; exact H0 | apply IH; assumption].
Qed.
Lemma ex_norm_sq : norm_sq (R := K) ex_nrm.
Proof.
  split.
  - intros t H ix V. unfold ex_nrm in H. apply sqrt_eq_0 in H; [|apply sum_sq_pos]. apply (sum_sq_zero H). apply In_idxs. exact V.
  - intros t. split; [reflexivity|]. unfold ex_nrm. cbn. apply sqrt_sqrt, sum_sq_pos.
Qed.
Lemma ex_sqrt_ok : sqrt_ok (R := K) ex_div sqrt ex_le 0%re.
Proof.
  intros x _ H. unfold ex_le in H. destruct (Rle_dec x 0) as [|L]; [discriminate|]. cbn. assert (0 < x)%re as P by lra.
  split; [apply sqrt_sqrt; lra|]. split; [reflexivity|]. split; [reflexivity|]. unfold ex_div. rewrite <- sqrt_mult_alt by lra. replace (x * (1 / x))%re with 1%re by (field; lra). apply sqrt_1.
Qed.
Lemma ex_isz_ok (x : K) : ex_isz x = true <-> x = r0.
Proof. unfold ex_isz. destruct (Req_EM_T x 0) as [H|H]; split; intros Q; [exact H|reflexivity|discriminate|contradiction]. Qed.
Lemma ex_nrm_pos (t : tns) ix : valid ix (shape t) -> elt t ix <> 0%re -> (0 < ex_nrm t)%re.
Proof.
  intros V N. destruct (Rle_lt_or_eq_dec 0 (ex_nrm t) (sqrt_pos _)) as [L|Q]; [exact L|]. exfalso. apply N. exact (proj1 ex_norm_sq t (eq_sym Q) ix V).
Qed.
Lemma ex_exact t p u s v tw : svd_at ex_svd ex_keep true None None t p = Ok (u, s, v, tw) -> forall x, In x tw -> x = r0.
Proof.
  unfold svd_at. intros H. destruct (ex_svd _) as [[[u0 s0] v0]| |]; [|discriminate..]. cbn [rbind svd] in H. unfold svd in H. injection H as _ _ _ <-. unfold ex_keep.
  rewrite skipn_all. intros x [].
Qed.

(** a matrix with two entries on its diagonal *)
Definition on_diag (x : tns) (p q : R) : Prop :=
  shape x = [2; 2] /\ elt x [0; 0] = p /\ elt x [0; 1] = 0%re /\ elt x [1; 0] = 0%re /\ elt x [1; 1] = q.
Lemma on_diag_diag x p q : on_diag x p q -> is_diag x = true.
Proof. intros (S & _ & Z1 & Z2 & _). apply is_diag_true; assumption. Qed.
Lemma dvec_diag p q : on_diag (reshape (dvec p q) [2; 2]) p q.
Proof. repeat split. Qed.

Lemma ex_positive x p q : on_diag x p q -> (0 < p)%re -> (0 < q)%re -> positive (R := K) ex_nrm ex_div ex_eigh ex_le 0%re 2 (fun i j => elt x [i; j]).
Proof.
  intros (S & X00 & X01 & X10 & X11) Hp Hq. unfold positive. set (z := nsum 2 (fun i => elt x [i; i])).
  assert (z = (p + q)%re) as Ez by (unfold z; real; rewrite X00, X11; ring). clearbody z. assert (0 < z)%re as Pz by (rewrite Ez; lra).
  split; [intros Q; rewrite Q in Pz; cbn in Pz; lra|]. split.
  - intros i j Hi Hj. small i; small j; cbn in *; rewrite ?X01, ?X10; reflexivity.
  - intros h w u v Sh Eh H Sv Ev e Ie. unfold ex_eigh in H. destruct (is_diag h); [|discriminate]. injection H as <- <-.
    assert (forall i, i < 2 -> (0 < elt h [i; i]%nat)%re) as Ph.
    { intros i Hi. rewrite (Eh i i Hi Hi). unfold ex_div. small i; cbn in *; rewrite ?X00, ?X11; apply Rdiv_lt_0_compat; assumption. }
    assert (0 < ex_nrm v)%re as Pn.
    { apply (@ex_nrm_pos v [0]); [rewrite Sv; repeat constructor|]. rewrite (Ev 0); [|cbn; lia]. cbn [nth]. pose proof (Ph 0 ltac:(lia)) as Q. intros Q'. exact (Rlt_not_eq _ _ Q (eq_sym Q')). }
    assert (0 < e)%re as Pe by (destruct Ie as [<-|[<-|[]]]; apply Ph; lia).
    unfold ex_le. destruct (Rle_dec _ _) as [L|]; [|reflexivity]. pose proof (Rdiv_lt_0_compat _ _ Pe Pn) as Q. unfold ex_div in L. exfalso. apply (Rlt_not_le _ _ Q). exact L.
Qed.

Notation ex_teigs := (transfer_matrix_eigs (fun l => l) ex_nrm ex_div ex_eigs ex_rnd ex_isz).
Lemma ex_good ts' d eta x : chain (R := K) 2 ts' 2 -> ex_teigs ts' d None = Ok (eta, x) ->
  sqrt (Rabs eta) <> 0%re /\ positive (R := K) ex_nrm ex_div ex_eigh ex_le 0%re 2 (fun i j => elt x [i; j]).
Proof.
  intros C H. unfold transfer_matrix_eigs in H. destruct ts' as [|t q]; [discriminate|]. destruct C as (d' & k & St & _). cbn [get nth_error rbind falsy] in H.
  rewrite St in H. cbn [nth Nat.eqb] in H. destruct (ex_eigs _ _) as [[eta' y]| |] eqn:Ee; [|discriminate..]. cbn [rbind] in H.
  destruct (ex_eigs_spec Ee) as (_ & Y & Pe & _).
  assert (exists p q, y = dvec p q /\ (0 < p)%re /\ (0 < q)%re) as (p & q' & -> & Pp & Pq) by (destruct Y as [-> | ->]; eexists; eexists; (split; [reflexivity|]); split; lra).
  unfold reshape_to in H. cbn in H. injection H as <- <-. split.
  - rewrite (Rabs_pos_eq eta') by lra. intros Q. apply sqrt_eq_0 in Q; lra.
  - apply (ex_positive (dvec_diag p q')); assumption.
Qed.

Lemma herm_diag x p q : on_diag x p q -> (p + q <> 0)%re -> on_diag (herm ex_div x) (p / (p + q)) (q / (p + q)).
Proof.
  intros (S & X00 & X01 & X10 & X11) N. assert (trace (R := K) x = (p + q)%re) as Et by (unfold trace; rewrite S; real; rewrite X00, X11; ring).
  unfold herm, tdiv. rewrite Et. unfold ex_div. split; [exact S|]. cbn in *. rewrite X00, X01, X10, X11. repeat split; field; assumption.
Qed.
Lemma masked_pos (w0 w1 : K) : (0 < w0)%re -> (0 < w1)%re -> exists n, (0 < n)%re /\
  masked (R := K) ex_nrm ex_div ex_le 0%re [w0; w1] = ([w0 / n; w1 / n], [1 / (w0 / n); 1 / (w1 / n)])%re.
Proof.
  intros H0 H1. set (n := ex_nrm (vec (R := K) [w0; w1])). assert (0 < n)%re as Pn.
  { apply (@ex_nrm_pos _ [0]); [repeat constructor|]. cbn. lra. }
  exists n. split; [exact Pn|]. unfold masked. fold n. cbn [map]. unfold ex_div, ex_le.
  pose proof (Rdiv_lt_0_compat _ _ H0 Pn) as Q0. pose proof (Rdiv_lt_0_compat _ _ H1 Pn) as Q1.
  destruct (Rle_dec (w0 / n) 0) as [L|_]; [exfalso; apply (Rlt_not_le _ _ Q0 L)|]. destruct (Rle_dec (w1 / n) 0) as [L|_]; [exfalso; apply (Rlt_not_le _ _ Q1 L)|]. reflexivity.
Qed.
Lemma roots_of p z n : (0 < p)%re -> (0 < z)%re -> (0 < n)%re ->
  (sqrt (p / z / n) = sqrt (1 / (z * n)) * sqrt p)%re /\ (sqrt (1 / (p / z / n)) = 1 / (sqrt (1 / (z * n)) * sqrt p))%re.
Proof.
  intros Hp Hz Hn. assert (0 < z * n)%re as Q by (apply Rmult_lt_0_compat; assumption). assert (0 < 1 / (z * n))%re as Q1 by (apply Rdiv_lt_0_compat; lra).
  assert (sqrt (1 / (z * n)) * sqrt p = sqrt (p / z / n))%re as E by (rewrite <- sqrt_mult_alt by lra; f_equal; field; lra).
  rewrite E. split; [reflexivity|]. assert (0 < p / z / n)%re as Q2 by (repeat apply Rdiv_lt_0_compat; assumption).
  rewrite sqrt_div_alt by exact Q2. rewrite sqrt_1. reflexivity.
Qed.
Lemma id_perm (l : list Z) : Permutation ((fun l => l) l) l.
Proof. apply Permutation_refl. Qed.

Lemma ex_roots_left x p q : on_diag x p q -> (0 < p)%re -> (0 < q)%re -> exists k sl il, (0 < k)%re /\
  roots_left (fun l => l) ex_nrm ex_div ex_eigh sqrt ex_le 0%re x = Ok (sl, il) /\
  on_diag sl (k * sqrt p) (k * sqrt q) /\ on_diag il (1 / (k * sqrt p)) (1 / (k * sqrt q)).
Proof.
  intros X Hp Hq. pose proof (herm_diag X ltac:(lra)) as Hh. unfold roots_left, ex_eigh. rewrite (on_diag_diag Hh). cbn [rbind].
  destruct Hh as (_ & -> & _ & _ & ->). assert (0 < p + q)%re as Pz by lra.
  destruct (masked_pos (Rdiv_lt_0_compat _ _ Hp Pz) (Rdiv_lt_0_compat _ _ Hq Pz)) as (n & Pn & ->).
  destruct (roots_of Hp Pz Pn) as (P1 & P2). destruct (roots_of Hq Pz Pn) as (Q1 & Q2). set (k := sqrt (1 / ((p + q) * n))) in *.
  assert (0 < k)%re as Pk by (apply sqrt_lt_R0, Rdiv_lt_0_compat; [lra | apply Rmult_lt_0_compat; assumption]).
  match goal with |- context [Mps.ncon_z ?it [?a; ?b] _] => destruct (@ncon_sl K it id_perm a b 2 2 2 eq_refl eq_refl) as (sl & Es & Ss & Vs) end.
  rewrite Es. cbn [rbind].
  match goal with |- context [Mps.ncon_z ?it [?a; ?b] _] => destruct (@ncon_il K it id_perm a b 2 2 2 eq_refl eq_refl) as (il & Ei & Si & Vi) end.
  rewrite Ei. cbn [rbind]. exists k, sl, il. split; [exact Pk|]. split; [reflexivity|].
  unfold on_diag. rewrite !Vs, !Vi by lia. cbn. change (car Rb_csr) with R. rewrite P1, P2, Q1, Q2. repeat split; try assumption; ring.
Qed.
Lemma ex_roots_right x p q : on_diag x p q -> (0 < p)%re -> (0 < q)%re -> exists k sr ir, (0 < k)%re /\
  roots_right (fun l => l) ex_nrm ex_div ex_eigh sqrt ex_le 0%re x = Ok (sr, ir) /\
  on_diag sr (k * sqrt p) (k * sqrt q) /\ on_diag ir (1 / (k * sqrt p)) (1 / (k * sqrt q)).
Proof.
  intros X Hp Hq. pose proof (herm_diag X ltac:(lra)) as Hh. unfold roots_right, ex_eigh. rewrite (on_diag_diag Hh). cbn [rbind].
  destruct Hh as (_ & -> & _ & _ & ->). assert (0 < p + q)%re as Pz by lra.
  destruct (masked_pos (Rdiv_lt_0_compat _ _ Hp Pz) (Rdiv_lt_0_compat _ _ Hq Pz)) as (n & Pn & ->).
  destruct (roots_of Hp Pz Pn) as (P1 & P2). destruct (roots_of Hq Pz Pn) as (Q1 & Q2). set (k := sqrt (1 / ((p + q) * n))) in *.
  assert (0 < k)%re as Pk by (apply sqrt_lt_R0, Rdiv_lt_0_compat; [lra | apply Rmult_lt_0_compat; assumption]).
  match goal with |- context [Mps.ncon_z ?it [?a; ?b] _] => destruct (@ncon_mm K it id_perm a b 2 2 2 eq_refl eq_refl) as (sl & Es & Ss & Vs) end.
  rewrite Es. cbn [rbind].
  match goal with |- context [Mps.ncon_z ?it [?a; ?b] _] => destruct (@ncon_ir K it id_perm a b 2 2 2 eq_refl eq_refl) as (il & Ei & Si & Vi) end.
  rewrite Ei. cbn [rbind]. exists k, sl, il. split; [exact Pk|]. split; [reflexivity|].
  unfold on_diag. rewrite !Vs, !Vi by lia. cbn. change (car Rb_csr) with R. rewrite P1, P2, Q1, Q2. repeat split; try assumption; ring.
Qed.

(** ** the run *)
Definition multiple (t : tns) (k : R) : Prop :=
  shape t = [2; 2; 2] /\ forall a s b, a < 2 -> s < 2 -> b < 2 -> elt t [a; s; b] = (k * elt exA [a; s; b]%nat)%re.
Lemma amp_one (t : tns) k a s b : multiple t k -> a < 2 -> s < 2 -> b < 2 -> amp [t] a [s] b = (k * elt exA [a; s; b]%nat)%re.
Proof.
  intros [S E] Ha Hs Hb. cbn [amp]. rewrite S. cbn [nth]. rewrite (nsum_delta_r (fun c => elt t [a; s; c]) Hb). apply E; assumption.
Qed.
Lemma multiple_chain t k : multiple t k -> chain 2 [t] 2.
Proof. intros [S _]. exists 2, 2. split; [exact S | reflexivity]. Qed.

Lemma mv_multiple t k d p q : multiple t k -> d <> DOther -> exists y, mv (fun l => l) [t] d 2 (dvec p q) = Ok y /\ shape y = [4] /\
  elt y [0] = (k * k * match d with DLeft => 9 / 25 * p + 16 / 25 * q | _ => 9 / 25 * (p + q) end)%re /\
  elt y [1] = 0%re /\ elt y [2] = 0%re /\
  elt y [3] = (k * k * match d with DLeft => 9 / 25 * p + 16 / 25 * q | _ => 16 / 25 * (p + q) end)%re.
Proof.
  intros M Hd. destruct (@mv_spec K (fun l => l) id_perm d 2 [t] (dvec p q) Hd (multiple_chain M) eq_refl) as (y & Ey & Sy & V).
  exists y. split; [exact Ey|]. split; [exact Sy|].
  assert (forall i j, i < 2 -> j < 2 -> elt y [2 * i + j] = dir_map d 2 [t] (fun a b => elt (reshape (dvec p q) [2; 2]) [a; b]) i j) as V'.
  { intros i j Hi Hj. rewrite <- (V i j Hi Hj). unfold reshape. cbn [elt]. rewrite Sy. small i; small j; reflexivity. }
  pose proof (V' 0 0 ltac:(lia) ltac:(lia)) as V00. pose proof (V' 0 1 ltac:(lia) ltac:(lia)) as V01.
  pose proof (V' 1 0 ltac:(lia) ltac:(lia)) as V10. pose proof (V' 1 1 ltac:(lia) ltac:(lia)) as V11. clear V V'.
  unfold dir_map in *. assert (phys [t] = [2]) as Ph by (destruct M as [S _]; cbn [phys map]; rewrite S; reflexivity). rewrite !Ph in *.
  assert (idxs [2] = [[0]; [1]]) as Ix by reflexivity. rewrite !Ix in *.
  assert (forall f : nat -> K, nsum 2 f = (f 0%nat + (f 1%nat + 0))%re) as N2 by reflexivity.
  assert (forall f : list nat -> K, lsum [[0]; [1]] f = (f [0%nat] + (f [1%nat] + 0))%re) as L2 by reflexivity.
  destruct d; [| |congruence]; rewrite !N2, !L2 in *; rewrite !(amp_one M) in * by lia; cbn in V00, V01, V10, V11 |- *; change (car Rb_csr) with R in *.
  - rewrite V00, V01, V10, V11. repeat split; field.
  - rewrite V00, V01, V10, V11. repeat split; field.
Qed.

Lemma try_ok (f : tns -> res tns) p q (z : tns) : f (dvec p q) = Ok z -> shape z = [4] -> elt z [1] = 0%re -> elt z [2] = 0%re -> (elt z [0%nat] * q = elt z [3%nat] * p)%re -> (0 < elt z [0%nat] / p)%re ->
  try_vec f p q = Ok ((elt z [0%nat] / p)%re, dvec p q).
Proof.
  intros E S Z1 Z2 Z3 Z4. unfold try_vec. rewrite E. destruct (list_eq_dec _ _ _); [|contradiction]. destruct (Req_EM_T _ _); [|contradiction]. destruct (Req_EM_T _ _); [|contradiction].
  destruct (Req_EM_T _ _); [|contradiction]. destruct (Rlt_dec _ _); [|contradiction]. reflexivity.
Qed.
Lemma try_raise (f : tns -> res tns) p q (z : tns) : f (dvec p q) = Ok z -> (elt z [0%nat] * q <> elt z [3%nat] * p)%re -> try_vec f p q = Raise.
Proof.
  intros E N. unfold try_vec. rewrite E. destruct (list_eq_dec _ _ _); [|reflexivity]. destruct (Req_EM_T _ _); [|reflexivity]. destruct (Req_EM_T _ _); [|reflexivity].
  destruct (Req_EM_T _ _); [contradiction|reflexivity].
Qed.
Lemma sq_pos k : k <> 0%re -> (0 < k * k)%re.
Proof. intros H. apply (Rsqr_pos_lt k H). Qed.

Lemma ex_left t k : multiple t k -> k <> 0%re -> exists eta, (0 < eta)%re /\ ex_teigs [t] DLeft None = Ok (eta, reshape (dvec 1 1) [2; 2]).
Proof.
  intros M Hk. pose proof (sq_pos Hk) as P. destruct (@mv_multiple t k DLeft 1 1 M ltac:(discriminate)) as (y & Ey & Sy & Y0 & Y1 & Y2 & Y3).
  exists (elt y [0%nat] / 1)%re. assert (0 < elt y [0%nat] / 1)%re as L by (rewrite Y0; lra). split; [exact L|].
  unfold transfer_matrix_eigs. cbn [get nth_error rbind falsy]. destruct M as [S _]. rewrite S. cbn [nth Nat.eqb]. unfold ex_eigs. cbn [ex_rnd shape Nat.mul Nat.add].
  destruct (list_eq_dec _ _ _) as [_|Q]; [|congruence].
  rewrite (@try_ok _ _ _ y Ey Sy Y1 Y2); [|rewrite Y0, Y3; ring | exact L]. cbn [rbind]. reflexivity.
Qed.
Lemma ex_right t k : multiple t k -> k <> 0%re -> exists eta, (0 < eta)%re /\ ex_teigs [t] DRight None = Ok (eta, reshape (dvec 9 16) [2; 2]).
Proof.
  intros M Hk. pose proof (sq_pos Hk) as P. destruct (@mv_multiple t k DRight 1 1 M ltac:(discriminate)) as (x & Ex & _ & X0 & _ & _ & X3).
  destruct (@mv_multiple t k DRight 9 16 M ltac:(discriminate)) as (y & Ey & Sy & Y0 & Y1 & Y2 & Y3).
  exists (elt y [0%nat] / 9)%re. assert (0 < elt y [0%nat] / 9)%re as L by (rewrite Y0; lra). split; [exact L|].
  unfold transfer_matrix_eigs. cbn [get nth_error rbind falsy]. destruct M as [S _]. rewrite S. cbn [nth Nat.eqb]. unfold ex_eigs. cbn [ex_rnd shape Nat.mul Nat.add].
  destruct (list_eq_dec _ _ _) as [_|Q]; [|congruence].
  rewrite (@try_raise _ _ _ x Ex); [|rewrite X0, X3; intros Q; lra].
  rewrite (@try_ok _ _ _ y Ey Sy Y1 Y2); [|rewrite Y0, Y3; field | exact L]. cbn [rbind]. reflexivity.
Qed.

(** the connecting matrix: none, or one with two entries on its diagonal *)
Definition conn_diag (conn : option tns) (g0 g1 : R) : Prop :=
  match conn with None => g0 = 1%re /\ g1 = 1%re | Some c => on_diag c g0 g1 end.

Lemma multiple_div t k z : multiple t k -> z <> 0%re -> multiple (tdiv ex_div t z) (k / z).
Proof. intros [S E] Hz. split; [exact S|]. intros a s b Ha Hs Hb. unfold tdiv, ex_div. cbn [elt]. rewrite (E a s b Ha Hs Hb). change (car Rb_csr) with R. unfold Rdiv. rewrite !Rmult_assoc. f_equal. apply Rmult_comm. Qed.

Lemma ex_svd_at t p q : on_diag t p q -> exists u v tw, svd_at ex_svd ex_keep true None None t 1 = Ok (u, [p; q], v, tw) /\ on_diag u 1 1 /\ on_diag v 1 1.
Proof.
  intros (S & X00 & X01 & X10 & X11). unfold svd_at. assert (on_diag (as_matrix t 1) p q) as A.
  { unfold as_matrix, on_diag. unfold reshape. rewrite S. cbn. repeat split; assumption. }
  unfold ex_svd. rewrite (on_diag_diag A). cbn [rbind]. unfold svd, ex_keep. cbn [length firstn skipn]. destruct A as (_ & -> & _ & _ & ->).
  eexists; eexists; eexists. split; [rewrite S; reflexivity|]. split; unfold on_diag; repeat split.
Qed.

Lemma ex_run conn g0 g1 : conn_diag conn g0 g1 -> g0 <> 0%re -> g1 <> 0%re -> exists t c nl kc m, kc <> 0%re /\ m <> 0%re /\
  ex_canonicalize (ex_state conn) = Ok (IMPS (MPS [t] (Some 0)) (Some c), nl) /\ shape t = [2; 2; 2] /\
  (forall a s b, a < 2 -> s < 2 -> b < 2 -> elt t [a; s; b] = (kc * elt exA [a; s; b]%nat * if b =? 0 then 3 * g0 else 4 * g1)%re) /\
  on_diag c (m / 3) (m / 4).
Proof.
  intros Hg N0 N1. unfold ex_canonicalize, canonicalize, ex_state. cbn [centre icell tens iconn]. unfold position at 1. cbn [centre tens guard length].
  change ((negb ((Z.of_nat 1 <=? 0)%Z || (0 <? 0)%Z))%bool) with true. cbn [guard]. change (Z.to_nat 0 =? 0) with true. cbn [get nth_error rbind set_nth fst tens].
  assert (multiple exA 1) as M0 by (split; [reflexivity | intros; symmetry; apply Rmult_1_l]).
  assert (0 < ex_nrm exA)%re as Pn by (apply (@ex_nrm_pos exA [0; 1; 0]); [repeat constructor | cbn; lra]).
  pose proof (multiple_div M0 (Rgt_not_eq _ _ Pn)) as M1. set (t0 := tdiv ex_div exA (ex_nrm exA)) in *.
  assert (1 / ex_nrm exA <> 0)%re as K1 by (apply Rgt_not_eq, Rdiv_lt_0_compat; lra). set (k1 := (1 / ex_nrm exA)%re) in *.
  destruct (ex_left M1 K1) as (eta & Pe & ->). cbn [rbind get nth_error set_nth].
  assert (0 < sqrt (Rabs eta))%re as Ps by (apply sqrt_lt_R0; rewrite Rabs_pos_eq; lra).
  pose proof (multiple_div M1 (Rgt_not_eq _ _ Ps)) as M2. set (t1 := tdiv ex_div t0 (sqrt (Rabs eta))) in *. set (k2 := (k1 / sqrt (Rabs eta))%re) in *.
  assert (k2 <> 0%re) as K2 by (unfold k2; apply Rmult_integral_contrapositive_currified; [exact K1 | apply Rinv_neq_0_compat, Rgt_not_eq; exact Ps]).
  destruct (ex_roots_left (dvec_diag 1 1) ltac:(lra) ltac:(lra)) as (kl & sl & il & Pl & -> & Dl & Dil). cbn [rbind].
  destruct (ex_right M2 K2) as (eta' & _ & ->). cbn [rbind].
  destruct (ex_roots_right (dvec_diag 9 16) ltac:(lra) ltac:(lra)) as (kr & sr & ir & Pr & -> & Dr & Dir). cbn [rbind].
  rewrite sqrt_1, ?Rmult_1_r in Dl, Dil. replace (sqrt 9) with 3%re in Dr, Dir by (replace 9%re with (3 * 3)%re by ring; symmetry; apply sqrt_square; lra).
  replace (sqrt 16) with 4%re in Dr, Dir by (replace 16%re with (4 * 4)%re by ring; symmetry; apply sqrt_square; lra).
  destruct Dl as (Sl & L00 & L01 & L10 & L11), Dr as (Sr & R00 & R01 & R10 & R11), Dil as (Sil & I00 & I01 & I10 & I11), Dir as (Sir & J00 & J01 & J10 & J11).
  assert (forall f : nat -> K, nsum 2 f = (f 0%nat + (f 1%nat + 0))%re) as N2 by reflexivity.
  match goal with |- context [Mps.ncon_z ?it [?a; ?b] _] => destruct (@ncon_mm K it id_perm a b 2 2 2 Sl Sr) as (tmp & Et & St & Vt) end.
  rewrite Et. cbn [rbind]. set (ka := (kl * kr)%re). assert (0 < ka)%re as Pka by (apply Rmult_lt_0_compat; assumption).
  assert (on_diag tmp (3 * ka) (4 * ka)) as Dt.
  { unfold on_diag. rewrite !Vt by lia. rewrite !N2, L00, L01, L10, L11, R00, R01, R10, R11. unfold ka. split; [exact St|]. repeat split; cbn; change (car Rb_csr) with R; ring. }
  destruct (ex_svd_at Dt) as (u & v & tw & -> & Du & Dv). cbn [rbind]. destruct Du as (Su & U00 & U01 & U10 & U11), Dv as (Sv & V00 & V01 & V10 & V11).
  set (lam := diagflat (R := K) [(3 * ka)%re; (4 * ka)%re]).
  assert (on_diag lam (3 * ka) (4 * ka)) as Dlam by (repeat split). pose proof Dlam as (Slam & M00 & M01 & M10 & M11). clearbody lam.
  destruct M2 as [St1 Vt1].
  match goal with |- context [Mps.ncon_z ?it [?a; ?b; ?c; ?d] _] => destruct (@ncon_first K it id_perm a b c d 2 2 2 2 2 2 Slam Sv Sir St1) as (x & Ex & Sx & Vx) end.
  rewrite Ex. cbn [rbind set_nth].
  assert (forall a s b, a < 2 -> s < 2 -> b < 2 -> elt x [a; s; b] = (ka / kr * (k2 * elt exA [a; s; b]%nat))%re) as Vx'.
  { intros a s b Ha Hs Hb. rewrite (Vx a s b Ha Hs Hb), !N2, !Vt1 by lia. rewrite V00, V01, V10, V11, J00, J01, J10, J11.
    small a; rewrite ?M00, ?M01, ?M10, ?M11; cbn [rmul cbase Rb_cjr Rb_csr]; change (car Rb_csr) with R; field; lra. }
  clear Vx Ex.
  assert (exists y, get_tensor (fun l => l) (IMPS (MPS [x] (Some 0)) conn) 0 = Ok y /\ shape y = [2; 2; 2] /\
    forall a s b, a < 2 -> s < 2 -> b < 2 -> elt y [a; s; b] = (elt x [a; s; b]%nat * if b =? 0 then g0 else g1)%re) as (y & Ey & Sy & Vy).
  { unfold get_tensor. cbn [icell tens iconn length Nat.ltb Nat.leb guard get nth_error rbind Nat.sub Nat.eqb]. destruct conn as [c|].
    - destruct Hg as (Sc & C00 & C01 & C10 & C11). destruct (@ncon_tm K (fun l => l) id_perm x c 2 2 2 2 Sx Sc) as (y & Ey & Sy & Vy). exists y. split; [exact Ey|]. split; [exact Sy|].
      intros a s b Ha Hs Hb. rewrite (Vy a s b Ha Hs Hb), N2. small b; rewrite ?C00, ?C01, ?C10, ?C11; cbn; change (car Rb_csr) with R; ring.
    - destruct Hg as [-> ->]. exists x. split; [reflexivity|]. split; [exact Sx|]. intros a s b _ _ _. destruct (b =? 0); symmetry; apply Rmult_1_r. }
  cbn [length Nat.sub]. rewrite Ey. cbn [rbind].
  match goal with |- context [Mps.ncon_z ?it [?a; ?b; ?c; ?d] _] => destruct (@ncon_last K it id_perm a b c d 2 2 2 2 2 2 Sy Sil Su Slam) as (w & Ew & Sw & Vw) end.
  rewrite Ew. cbn [rbind set_nth].
  assert (forall a s b, a < 2 -> s < 2 -> b < 2 -> elt w [a; s; b] = (k2 * ka * ka / (kl * kr) * elt exA [a; s; b]%nat * if b =? 0 then 3 * g0 else 4 * g1)%re) as Vw'.
  { intros a s b Ha Hs Hb. rewrite (Vw a s b Ha Hs Hb), !N2, !Vy, !Vx' by lia. rewrite U00, U01, U10, U11, I00, I01, I10, I11.
    small b; rewrite ?M00, ?M01, ?M10, ?M11; cbn [rmul cbase Rb_cjr Rb_csr Nat.eqb]; change (car Rb_csr) with R; field; lra. }
  unfold position. cbn [centre tens guard length].
  change ((negb ((Z.of_nat 1 <=? Z.of_nat 1 - 1)%Z || (Z.of_nat 1 - 1 <? 0)%Z))%bool) with true. cbn [guard]. change (Z.to_nat (Z.of_nat 1 - 1) =? 0) with true.
  cbn [get nth_error rbind set_nth fst tens].
  set (kw := (k2 * ka * ka / (kl * kr))%re) in *.
  assert (kw <> 0%re) as Kw.
  { pose proof (Rgt_not_eq _ _ Pka) as Q. unfold kw, Rdiv.
    exact (Rmult_integral_contrapositive_currified _ _ (Rmult_integral_contrapositive_currified _ _ (Rmult_integral_contrapositive_currified _ _ K2 Q) Q) (Rinv_neq_0_compat _ Q)). }
  assert (0 < ex_nrm w)%re as Pw.
  { apply (@ex_nrm_pos w [0; 1; 0]); [rewrite Sw; repeat constructor|]. rewrite Vw' by lia. clearbody kw. cbn. apply Rmult_integral_contrapositive_currified; apply Rmult_integral_contrapositive_currified; try assumption; lra. }
  set (nl := ex_nrm (vec (R := K) [(3 * ka)%re; (4 * ka)%re])).
  assert (0 < nl)%re as Pnl by (apply (@ex_nrm_pos _ [0]); [repeat constructor | cbn; lra]).
  assert (on_diag (tdiv ex_div lam nl) (3 * ka / nl) (4 * ka / nl)) as Dd.
  { unfold on_diag, tdiv, ex_div. cbn [elt shape]. rewrite M00, M01, M10, M11. split; [exact Slam|]. repeat split; apply Rmult_0_l. }
  unfold ex_inv. rewrite (on_diag_diag Dd). destruct Dd as (_ & D00 & _ & _ & D11). rewrite D00, D11.
  assert (0 < 3 * ka / nl)%re as P3 by (apply Rdiv_lt_0_compat; lra). assert (0 < 4 * ka / nl)%re as P4 by (apply Rdiv_lt_0_compat; lra).
  destruct (Req_EM_T _ _) as [Q|_]; [exfalso; lra|]. destruct (Req_EM_T _ _) as [Q|_]; [exfalso; lra|]. cbn [rbind].
  exists (tdiv ex_div w (ex_nrm w)), (diag2 (1 / (3 * ka / nl)) (1 / (4 * ka / nl))), nl, (kw / ex_nrm w)%re, (nl / ka)%re.
  split; [apply Rmult_integral_contrapositive_currified; [exact Kw | apply Rinv_neq_0_compat, Rgt_not_eq; exact Pw]|].
  split; [apply Rgt_not_eq, Rdiv_lt_0_compat; assumption|]. split; [reflexivity|]. split; [exact Sw|]. split.
  - intros a s b Ha Hs Hb. unfold tdiv, ex_div. cbn [elt]. rewrite (Vw' a s b Ha Hs Hb). match goal with |- @eq _ ?a ?b => change (@eq R a b) end. unfold Rdiv. ring.
  - split; [reflexivity|]. cbn. repeat split; field; lra.
Qed.
