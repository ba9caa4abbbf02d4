(** * JaxLanczosExamples: an eigensolver for real 2 x 2 matrices, and an operator whose Krylov spaces are far from invariant *)
From Coq Require Import Reals Lra.
From Verif Require Import Prelude Algebra Krylov KrylovFacts KrylovSpec KrylovInst KrylovExamples.
Set Implicit Arguments.
Unset Strict Implicit.
Open Scope nat_scope.

Definition rot (c s : R) : mx R_cfd := [[c; (- s)%re]; [s; c]].
Definition eigh2 (m : mx R_cfd) : option (list R_cfd * mx R_cfd) :=
  let a : R := ent m 0 0 in let b : R := ent m 0 1 in let d : R := ent m 1 1 in
  if length m =? 2 then
    if Req_EM_T b 0%re then
      if Rle_dec a d then Some ([a; d] : list R_cfd, rot 1%re 0%re) else Some ([d; a] : list R_cfd, rot 0%re 1%re)
    else
      let r := sqrt ((a - d) * (a - d) + 4 * b * b)%re in
      let l1 := ((a + d - r) / 2)%re in
      let n := sqrt (b * b + (l1 - a) * (l1 - a))%re in
      Some ([l1; ((a + d + r) / 2)%re] : list R_cfd, rot (b / n)%re ((l1 - a) / n)%re)
  else None.
Lemma rot_ok (m : mx R_cfd) (l1 l2 c s : R) :
  (c * c + s * s = 1)%re -> (l1 <= l2)%re ->
  (ent m 0 0 * c + ent m 0 1 * s = l1 * c)%re -> (ent m 1 0 * c + ent m 1 1 * s = l1 * s)%re ->
  (- ent m 0 0 * s + ent m 0 1 * c = - l2 * s)%re -> (- ent m 1 0 * s + ent m 1 1 * c = l2 * c)%re ->
  eigen_ok (K := R_cfd) 2 m ([l1; l2], rot c s).
Proof.
  intros Hn Hl H1 H2 H3 H4.
  assert (N : forall f : nat -> R_cfd, nsum 2 f = f 0 +! f 1) by (intros f; unfold nsum, lsum; cbn; apply Rplus_eq_compat_l; apply Rplus_0_r).
  split; [reflexivity|]. split; [|split; [|split]].
  - intros i j Hi Hj. rewrite N. destruct i as [|[|i]], j as [|[|j]]; try lia.
    + change (ent m 0 0 * c + ent m 0 1 * s = l1 * c)%re. exact H1.
    + change (ent m 0 0 * - s + ent m 0 1 * c = l2 * - s)%re. lra.
    + change (ent m 1 0 * c + ent m 1 1 * s = l1 * s)%re. exact H2.
    + change (ent m 1 0 * - s + ent m 1 1 * c = l2 * c)%re. lra.
  - intros i j Hi Hj. rewrite N. destruct i as [|[|i]], j as [|[|j]]; try lia; cbn; lra.
  - intros i j Hi Hj. rewrite N. destruct i as [|[|i]], j as [|[|j]]; try lia; cbn; lra.
  - intros i j Hij Hj. destruct i as [|[|i]], j as [|[|j]]; try lia; cbn; lra.
Qed.
Lemma eigh2_ok : eigh_contract eigh2.
Proof.
  intros m eu Hh H. unfold eigh2 in H. destruct (length m =? 2) eqn:E; [|discriminate]. apply Nat.eqb_eq in E. rewrite E in *.
  assert (Hs : ent m 1 0 = ent m 0 1) by (apply Hh; lia).
  destruct (Req_EM_T (ent m 0 1) 0%re) as [Eb|Nb].
  - destruct (Rle_dec (ent m 0 0) (ent m 1 1)) as [Hl|Hl]; injection H as <-; apply rot_ok; rewrite ?Hs, ?Eb; try lra.
  - set (a := ent m 0 0 : R) in *. set (b := ent m 0 1 : R) in *. set (d := ent m 1 1 : R) in *.
    set (r := sqrt ((a - d) * (a - d) + 4 * b * b)%re) in *. set (l1 := ((a + d - r) / 2)%re) in *.
    set (n := sqrt (b * b + (l1 - a) * (l1 - a))%re) in *.
    injection H as <-.
    assert (Bp : (0 < b * b)%re) by (apply Rsqr_pos_lt; exact Nb).
    assert (Rr : (r * r = (a - d) * (a - d) + 4 * b * b)%re) by (unfold r; apply sqrt_sqrt; pose proof (Rle_0_sqr (a - d)) as Q; unfold Rsqr in Q; lra).
    assert (Rp : (0 <= r)%re) by apply sqrt_pos.
    assert (Nn : (n * n = b * b + (l1 - a) * (l1 - a))%re) by (unfold n; apply sqrt_sqrt; pose proof (Rle_0_sqr (l1 - a)) as Q; unfold Rsqr in Q; lra).
    assert (Np : n <> 0%re) by (intros Z; rewrite Z in Nn; pose proof (Rle_0_sqr (l1 - a)) as Q; unfold Rsqr in Q; lra).
    assert (Ec : (b * b + d * (l1 - a) = l1 * (l1 - a))%re) by (unfold l1; nra).
    assert (El : ((a + d + r) / 2 = a + d - l1)%re) by (unfold l1; field).
    rewrite El. clearbody n. 
    apply rot_ok; rewrite ?Hs; fold a b d.
    + replace (b / n * (b / n) + (l1 - a) / n * ((l1 - a) / n))%re with ((b * b + (l1 - a) * (l1 - a)) / (n * n))%re by (field; exact Np).
      rewrite <- Nn. field. exact Np.
    + unfold l1. lra.
    + field. exact Np.
    + replace (b * (b / n) + d * ((l1 - a) / n))%re with ((b * b + d * (l1 - a)) / n)%re by (field; exact Np). rewrite Ec. field. exact Np.
    + replace (- a * ((l1 - a) / n) + b * (b / n))%re with ((b * b - a * (l1 - a)) / n)%re by (field; exact Np).
      replace (b * b)%re with (l1 * (l1 - a) - d * (l1 - a))%re by lra. field. exact Np.
    + field. exact Np.
Qed.
Lemma eigh2_total (m : mx R_cfd) : length m = 2 -> eigh2 m <> None.
Proof.
  intros E. unfold eigh2. rewrite E. cbn [Nat.eqb]. destruct (Req_EM_T (ent m 0 1) 0%re); [destruct (Rle_dec (ent m 0 0) (ent m 1 1))|]; discriminate.
Qed.

(** the operator (x, y) -> (y, x) and the initial state (1, 0): the residual of the first Krylov vector has length 1 *)
Definition U2 : ips R_cfd := tup_ips R_cfd 2.
Definition swap (x : U2) : U2 := (fst (snd x), (fst x, tt)).
Definition u10 : U2 := (1%re, (0%re, tt)).
Lemma swap_herm : hermitian swap.
Proof. intros [a [b []]] [c [d []]]. cbn. ring. Qed.
Lemma swap_far kv T n : 0 < length kv -> length kv < 2 -> factorised swap kv T -> same_span kv (krylov swap u10 (length kv)) ->
  csqrt (ip (residual swap kv T) (residual swap kv T)) = Some n -> clt ((1 / 2)%re : R_cfd) n = true.
Proof.
  intros L1 L2 Hf Hs En. destruct kv as [|v [|v' kv]]; [simpl in L1; lia| |simpl in L2; lia].
  assert (Hv : in_span (krylov swap u10 1) v).
  { apply Hs. exists (fun _ => r1). unfold lin, vsum. cbn [length seq fold_right nth]. rewrite vs_1, va_z. reflexivity. }
  destruct Hv as [c Hv]. unfold lin, vsum, krylov in Hv. cbn [length seq fold_right nth map Nat.iter] in Hv. rewrite va_z in Hv.
  set (k := c 0 : R) in *. assert (E : v = (k, (0%re, tt))) by (rewrite Hv; cbn; f_equal; [ring|f_equal; ring]).
  pose proof (fa_on Hf (i := 0) (j := 0)) as H1. cbn [length nth] in H1. specialize (H1 L1 L1). rewrite E in H1. cbn in H1.
  pose proof (fa_perp Hf (i := 0)) as H2. cbn [length nth] in H2. specialize (H2 L1).
  assert (Er : residual swap [v] T = ((- (ent T 0 0 : R) * k)%re, (k, tt))).
  { unfold residual, lin, vsum. cbn [length seq fold_right nth Nat.sub]. rewrite va_z, E. cbn -[ent]. f_equal; [ring|f_equal; ring]. }
  rewrite Er in H2, En. rewrite E in H2. cbn -[ent] in H2. set (t := ent T 0 0 : R) in *.
  assert (Kk : (k * k = 1)%re) by lra. assert (Ht : t = 0%re) by nra. rewrite Ht in En.
  assert (Ei : @ip R_cfd U2 ((- 0 * k)%re, (k, tt)) ((- 0 * k)%re, (k, tt)) = 1%re) by (cbn; lra).
  rewrite Ei in En. apply csqrt_ok in En. destruct En as [E1 E2]. cbn in E1, E2. cbn. destruct (Rlt_dec (1 / 2) n) as [_|N]; [reflexivity|]. nra.
Qed.
