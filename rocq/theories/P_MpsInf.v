(** * C58: infinite matrix product states: transfer operators and the canonical form *)
From Coq Require Import List ZArith Lia Permutation Reals Lra.
From Verif Require Import Prelude Res Algebra Tensor TensorFacts DecompFacts Mps MpsSpec
  MpsInf MpsInfSpec MpsInfFacts MpsInfCanon KrylovInst MpsInfExample.
Import ListNotations.
Set Implicit Arguments.
Unset Strict Implicit.
Local Open Scope nat_scope.
Local Open Scope csr_scope.

Section C58.
  Context {R : cjr} {E : Type}.
  Notation tensor := (Tensor.tensor R).
  Variable iter : list Z -> list Z.
  Hypothesis iter_perm : forall l, Permutation (iter l) l.

  (** [unit_cell_transfer_operator] from the left and from the right: the map of the whole unit cell *)
  Theorem C58_transfer_left D (ts : list tensor) x : chain D ts D -> shape x = [D; D] ->
    exists y, unit_cell_transfer_operator iter ts DLeft x = Ok y /\ shape y = [D; D] /\
    forall i j, i < D -> j < D -> elt y [i; j] =
      nsum D (fun a => nsum D (fun b => elt x [a; b] *! lsum (idxs (phys ts)) (fun sg => amp ts a sg i *! cj (amp ts b sg j)))).
  Proof. intros C S. exact (@unit_cell_spec R iter iter_perm DLeft D ts x ltac:(discriminate) C S). Qed.
  Theorem C58_transfer_right D (ts : list tensor) x : chain D ts D -> shape x = [D; D] ->
    exists y, unit_cell_transfer_operator iter ts DRight x = Ok y /\ shape y = [D; D] /\
    forall i j, i < D -> j < D -> elt y [i; j] =
      nsum D (fun a => nsum D (fun b => elt x [a; b] *! lsum (idxs (phys ts)) (fun sg => amp ts i sg a *! cj (amp ts j sg b)))).
  Proof. intros C S. exact (@unit_cell_spec R iter iter_perm DRight D ts x ltac:(discriminate) C S). Qed.

  Variable qrf : tensor -> res (tensor * tensor).
  Variable svdf : tensor -> res (tensor * list R * tensor).
  Variable nkeep : bool -> option nat -> option E -> list R -> nat.
  Variable err_ge1 : E -> bool.
  Variable nrm : tensor -> R.
  Variable rdiv : R -> R -> R.
  Variable eigs : (tensor -> res tensor) -> tensor -> res (R * tensor).
  Variable rnd : nat -> tensor.
  Variable isz : R -> bool.
  Hypothesis Heigs : eigs_ok eigs.
  Hypothesis Hrnd : forall n, shape (rnd n) = [n].
  Notation teigs := (transfer_matrix_eigs iter nrm rdiv eigs rnd isz).

  (** [transfer_matrix_eigs] returns a matrix that the transfer operator multiplies by a number *)
  Theorem C58_eigs_left D (ts : list tensor) ini eta x : chain D ts D -> teigs ts DLeft ini = Ok (eta, x) ->
    shape x = [D; D] /\ exists k, left_eigen D ts k (fun i j => elt x [i; j]).
  Proof. intros C H. exact (@teigs_spec R iter iter_perm nrm rdiv eigs rnd isz Heigs Hrnd DLeft D ts ini eta x ltac:(discriminate) C H). Qed.
  Theorem C58_eigs_right D (ts : list tensor) ini eta x : chain D ts D -> teigs ts DRight ini = Ok (eta, x) ->
    shape x = [D; D] /\ exists k, right_eigen D ts k (fun i j => elt x [i; j]).
  Proof. intros C H. exact (@teigs_spec R iter iter_perm nrm rdiv eigs rnd isz Heigs Hrnd DRight D ts ini eta x ltac:(discriminate) C H). Qed.

  Variable eigh : tensor -> res (list R * tensor).
  Variable inv : tensor -> res tensor.
  Variable sqrtf absf : R -> R.
  Variable le : R -> R -> bool.
  Variable cutoff : R.
  Hypothesis Hqr : qr_ok qrf.
  Hypothesis Hsvd : svd_ok svdf.
  Hypothesis Hdiv : div_ok rdiv.
  Hypothesis H2 : r1 +! r1 <> r0 :> R.
  Hypothesis Hn : norm_sq nrm.
  Hypothesis Heigh : eigh_ok eigh.
  Hypothesis Hinv : inv_ok inv.
  Hypothesis Hsqrt : sqrt_ok rdiv sqrtf le cutoff.
  Hypothesis Hisz : forall x, isz x = true <-> x = r0.

  Variables (D : nat) (li ri : option tensor) (err : option E) (Dm : option nat) (m m' : imps R) (nl : R).
  Notation ts := (tens (icell m)).
  Notation ts' := (tens (icell m')).
  Hypothesis Hc : chain D ts D.
  Hypothesis Hconn : match iconn m with Some c => shape c = [D; D] | None => True end.
  (** the state is not zero *)
  Hypothesis Hnz : exists a sg b, a < D /\ b < D /\ valid sg (phys ts) /\ cell ts (iconn m) a sg b <> r0.
  (** the eigenvectors found for the multiples of the unit cell have a positive eigenvalue and are multiples of
      positive matrices, with all eigenvalues beyond the cutoff *)
  Hypothesis Hgood : forall ts1 k d ini eta x, chain D ts1 D -> scaled D D k ts ts1 -> d <> DOther -> ini = li \/ ini = ri -> teigs ts1 d ini = Ok (eta, x) ->
    sqrtf (absf eta) <> r0 /\ positive nrm rdiv eigh le cutoff D (fun i j => elt x [i; j]).
  (** the singular values are real; only zeros are discarded *)
  Hypothesis Hexact : forall t p u s v tw, svd_at svdf nkeep true Dm err t p = Ok (u, s, v, tw) -> forall x, In x tw -> x = r0.
  Hypothesis Hreal : forall t u s v, svdf t = Ok (u, s, v) -> forall x, In x s -> cj x = x.
  Hypothesis Hrun : canonicalize iter qrf svdf nkeep err_ge1 nrm rdiv eigs rnd eigh inv sqrtf absf le isz li ri err Dm cutoff m = Ok (m', nl).

  (** [canonicalize] keeps the state: on every ring of unit cells, the amplitudes are multiplied by one number per
      cell, whether there is a connecting matrix or not *)
  Theorem C58_same_state : exists k c z, iconn m' = Some c /\ chain k ts' k /\ phys ts' = phys ts /\ shape c = [k; k] /\ z <> r0 /\
    forall ws, ws <> [] -> (forall w, In w ws -> valid w (phys ts)) ->
    ring_amp D (cell ts (iconn m)) ws = lprod ws (fun _ => z) *! ring_amp k (cell ts' (Some c)) ws.
  Proof.
    destruct (@result R E iter iter_perm qrf svdf nkeep err_ge1 nrm rdiv eigs rnd eigh inv sqrtf absf le isz cutoff Hqr Hsvd Hdiv H2 Hn Heigs Hrnd Heigh Hinv Hsqrt Hisz
      D li ri err Dm m m' nl Hc Hconn Hnz Hgood Hexact Hreal Hrun) as (k & ss & c & A1 & A2 & _ & _ & A3 & A4 & _ & _ & _ & _ & (z & A5 & A6) & _).
    exists k, c, z. repeat (split; [assumption|]). assumption.
  Qed.

  (** the new centre is the last site and every site before it is an isometry; the connecting matrix is the inverse of
      the diagonal matrix of real Schmidt values [ss], the squares of which have sum one; if there was no connecting
      matrix before, then cell times connecting matrix is isometric from the left, and connecting matrix times cell is
      isometric from the right *)
  Theorem C58_canonical_form : exists k ss c,
    centre (icell m') = Some (length ts - 1) /\ canonical ts' (length ts - 1) /\ iconn m' = Some c /\ shape c = [k; k] /\
    length ss = k /\ (forall x, In x ss -> cj x = x) /\ nsum k (fun i => nth i ss r0 *! nth i ss r0) = r1 /\
    (forall i j, i < k -> j < k -> nth i ss r0 *! elt c [i; j] = if i =? j then r1 else r0) /\
    (iconn m = None -> left_normal k (phys ts) (cell ts' (Some c)) /\ right_normal k (phys ts) (cell_from_left ts' c)).
  Proof.
    destruct (@result R E iter iter_perm qrf svdf nkeep err_ge1 nrm rdiv eigs rnd eigh inv sqrtf absf le isz cutoff Hqr Hsvd Hdiv H2 Hn Heigs Hrnd Heigh Hinv Hsqrt Hisz
      D li ri err Dm m m' nl Hc Hconn Hnz Hgood Hexact Hreal Hrun) as (k & ss & c & A1 & A2 & A3 & A4 & A5 & A6 & A7 & A8 & A9 & A10 & _ & A11).
    exists k, ss, c. repeat (split; [assumption|]). assumption.
  Qed.
End C58.
Print Assumptions C58_transfer_left.
Print Assumptions C58_transfer_right.
Print Assumptions C58_eigs_left.
Print Assumptions C58_eigs_right.
Print Assumptions C58_same_state.
Print Assumptions C58_canonical_form.

(** the state of MpsInfExample.v, without a connecting matrix and with one, meets the hypotheses, and [canonicalize] returns *)
Example C58_ex (conn : option tns) : conn = None \/ conn = Some (diag2 1 2) -> exists m' nl,
  ex_canonicalize (ex_state conn) = Ok (m', nl) /\
  qr_ok (R := K) ex_qr /\ svd_ok (R := K) ex_svd /\ div_ok (R := K) ex_div /\ (r1 +! r1 <> r0 :> K) /\ norm_sq (R := K) ex_nrm /\ eigs_ok (R := K) ex_eigs /\
  eigh_ok (R := K) ex_eigh /\ inv_ok (R := K) ex_inv /\ sqrt_ok (R := K) ex_div sqrt ex_le 0%re /\ (forall x : K, ex_isz x = true <-> x = r0) /\
  chain (R := K) 2 [exA] 2 /\ (exists a sg b, a < 2 /\ b < 2 /\ valid sg [2] /\ cell [exA] conn a sg b <> r0) /\
  (forall ts1 d eta x, chain 2 ts1 2 -> ex_teigs ts1 d None = Ok (eta, x) ->
     sqrt (Rabs eta) <> 0%re /\ positive (R := K) ex_nrm ex_div ex_eigh ex_le 0%re 2 (fun i j => elt x [i; j])) /\
  (forall t p u s v tw, svd_at ex_svd ex_keep true None None t p = Ok (u, s, v, tw) -> forall x : K, In x tw -> x = r0).
Proof.
  intros H. assert (exists g0 g1, conn_diag conn g0 g1 /\ g0 <> 0%re /\ g1 <> 0%re) as (g0 & g1 & Hg & N0 & N1).
  { destruct H as [-> | ->]; [exists 1%re, 1%re | exists 1%re, 2%re]; (split; [repeat split | split; lra]). }
  destruct (ex_run Hg N0 N1) as (t & c & nl & kc & m & _ & _ & R & _). eexists; eexists. split; [exact R|].
  split; [exact ex_qr_ok|]. split; [exact ex_svd_ok|]. split; [exact ex_div_ok|]. split; [cbn; lra|]. split; [exact ex_norm_sq|]. split; [exact ex_eigs_ok|].
  split; [exact ex_eigh_ok|]. split; [exact ex_inv_ok|]. split; [exact ex_sqrt_ok|]. split; [exact ex_isz_ok|]. split; [exists 2, 2; repeat split|].
  split; [|split; [intros ts1 d eta x C T; exact (ex_good C T) | exact ex_exact]].
  exists 0, [1], 0. split; [lia|]. split; [lia|]. split; [repeat constructor|]. destruct H as [-> | ->]; cbn; lra.
Qed.
