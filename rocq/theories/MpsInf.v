(** * MpsInf: infinite matrix product states, tensornetwork/matrixproductstates/infinite_mps.py, with the parts
    of base_mps.py that know the connector matrix.

    A state is the list [self.tensors] of the unit cell with [self.center_position] and
    [self.connector_matrix].  Parameters beyond those of Mps.v: [eigs] is [backend.eigs] with [numeig=1] (the
    first eigenvalue and vector; [precision], [num_krylov_vecs], [maxiter] and [which] are part of it), [rnd n]
    the random vector of [n] entries, [eigh] and [inv] the library functions ([eigh] returns the eigenvalues as a
    list), [sqrtf], [absf] and [le] the elementwise square root, absolute value and [<=], [isz] the comparison
    with zero.  Errors of dtypes, in-place updates of shared arrays and jit are not modelled. *)
From Coq Require Import List ZArith.
From Verif Require Import Prelude Res Algebra Tensor Ncon BlockSparse Backends Mps.
Import ListNotations.
Set Implicit Arguments.
Unset Strict Implicit.
Local Open Scope nat_scope.

Section MpsInf.
  Context {R : cjr} {E : Type}.
  Variable iter : list Z -> list Z.
  Variable qrf : tensor R -> res (tensor R * tensor R).
  Variable svdf : tensor R -> res (tensor R * list R * tensor R).
  Variable nkeep : bool -> option nat -> option E -> list R -> nat.
  Variable err_ge1 : E -> bool.
  Variable nrm : tensor R -> R.
  Variable rdiv : R -> R -> R.
  Variable eigs : (tensor R -> res (tensor R)) -> tensor R -> res (R * tensor R).
  Variable rnd : nat -> tensor R.
  Variable eigh : tensor R -> res (list R * tensor R).
  Variable inv : tensor R -> res (tensor R).
  Variable sqrtf absf : R -> R.
  Variable le : R -> R -> bool.
  Variable isz : R -> bool.
  Notation ncon_z := (ncon_z iter).
  Notation pos m site := (position iter qrf svdf nkeep err_ge1 nrm rdiv true None None m site).

  (** base_mps.py:87-92 *)
  Record imps := IMPS { icell : mps R; iconn : option (tensor R) }.

  (** base_mps.py:673-697 [get_tensor] for a site in range; [tensors[-1]] is the last tensor *)
  Definition get_tensor (m : imps) (site : nat) : res (tensor R) :=
    let ts := tens (icell m) in
    guard (site <? length ts)
    (rbind (get ts site) (fun t =>
     match iconn m with
     | Some c => if site =? length ts - 1 then ncon_z [t; c] [[-1; -2; 1]; [1; -3]]%Z else Ok t
     | None => Ok t
     end)).

  (** [direction]: one of [1, 'l', 'left'], one of [-1, 'r', 'right'], anything else *)
  Inductive dir := DLeft | DRight | DOther.

  (** base_mps.py:264-285 [apply_transfer_operator]; the connector matrix does not occur *)
  Definition apply_transfer_operator (ts : list (tensor R)) (site : nat) (d : dir) (x : tensor R) : res (tensor R) :=
    match d with
    | DLeft => rbind (get ts site) (fun t => left_transfer_operator iter t x (conj_t t))
    | DRight => rbind (get ts site) (fun t => right_transfer_operator iter t x (conj_t t))
    | DOther => Raise
    end.
  (** infinite_mps.py:94-102 [unit_cell_transfer_operator] *)
  Fixpoint over (ts : list (tensor R)) (d : dir) (sites : list nat) (x : tensor R) : res (tensor R) :=
    match sites with
    | [] => Ok x
    | s :: r => rbind (apply_transfer_operator ts s d x) (over ts d r)
    end.
  Definition unit_cell_transfer_operator (ts : list (tensor R)) (d : dir) (x : tensor R) : res (tensor R) :=
    over ts d (match d with DRight => rev (seq 0 (length ts)) | _ => seq 0 (length ts) end) x.

  (** [backend.reshape]: raises when the sizes differ *)
  Definition reshape_to (x : tensor R) (s : list nat) : res (tensor R) :=
    guard (nprod (shape x) =? nprod s) (Ok (reshape x s)).
  (** 129-132 [mv] *)
  Definition mv (ts : list (tensor R)) (d : dir) (D : nat) (x : tensor R) : res (tensor R) :=
    rbind (reshape_to x [D; D]) (fun m =>
    rbind (unit_cell_transfer_operator ts d m) (fun y => reshape_to y [D * D])).
  (** 134 [not initial_state]: the truth value of an array with one entry is that of the entry, an empty array
      is false, any other array raises *)
  Definition falsy (x : option (tensor R)) : res bool :=
    match x with
    | None => Ok true
    | Some t => match nprod (shape t) with
                | 0 => Ok true
                | 1 => Ok (isz (elt t (map (fun _ => 0) (shape t))))
                | _ => Raise
                end
    end.
  (** 104-167 [transfer_matrix_eigs] *)
  Definition transfer_matrix_eigs (ts : list (tensor R)) (d : dir) (initial : option (tensor R)) : res (R * tensor R) :=
    rbind (get ts 0) (fun t0 =>
    let D := nth 0 (shape t0) 0 in
    rbind (falsy initial) (fun b =>
    rbind (match b, initial with
           | false, Some x => reshape_to x [D * D]
           | _, _ => Ok (rnd (D * D))
           end) (fun v0 =>
    if D =? 1 then
      rbind (mv ts d D (tdiv rdiv v0 (nrm v0))) (fun y =>
      rbind (reshape_to y [D; D]) (fun x => Ok (nrm y, x)))
    else
      rbind (eigs (mv ts d D) v0) (fun f => let '(eta, y) := f in
      rbind (reshape_to y [D; D]) (fun x => Ok (eta, x)))))).

  (** [backend.trace] of a matrix *)
  Definition trace (x : tensor R) : R :=
    nsum (Nat.min (nth 0 (shape x) 0) (nth 1 (shape x) 0)) (fun i => elt x [i; i]).
  (** 231-232, 260-261: divided by the trace, then the Hermitian part *)
  Definition herm (x : tensor R) : tensor R :=
    let y := tdiv rdiv x (trace x) in
    Tensor (shape y) (fun ix => rdiv (radd (elt y ix) (cj (elt y [nth 1 ix 0; nth 0 ix 0]))) (radd r1 r1)).
  Definition vec (w : list R) : tensor R := Tensor [length w] (fun ix => nth (nth 0 ix 0) w r0).
  (** 236-241, 264-269: divided by the norm; values up to the cutoff are replaced by zero, and their inverses *)
  Definition masked (cutoff : R) (w : list R) : list R * list R :=
    let w1 := map (fun x => rdiv x (nrm (vec w))) w in
    (map (fun x => if le x cutoff then r0 else x) w1, map (fun x => if le x cutoff then r0 else rdiv r1 x) w1).

  (** 230-251: [sqrtl] and [inv_sqrtl] from the left eigenvector *)
  Definition roots_left (cutoff : R) (l : tensor R) : res (tensor R * tensor R) :=
    rbind (eigh (herm l)) (fun f => let '(w, u) := f in
    let '(e, ie) := masked cutoff w in
    rbind (ncon_z [u; diagflat (map sqrtf e)] [[-2; 1]; [1; -1]]%Z) (fun sqrtl =>
    rbind (ncon_z [diagflat (map sqrtf ie); conj_t u] [[-2; 1]; [-1; 1]]%Z) (fun inv_sqrtl =>
    Ok (sqrtl, inv_sqrtl)))).
  (** 260-278: [sqrtr] and [inv_sqrtr] from the right eigenvector *)
  Definition roots_right (cutoff : R) (r : tensor R) : res (tensor R * tensor R) :=
    rbind (eigh (herm r)) (fun f => let '(w, u) := f in
    let '(e, ie) := masked cutoff w in
    rbind (ncon_z [u; diagflat (map sqrtf e)] [[-1; 1]; [1; -2]]%Z) (fun sqrtr =>
    rbind (ncon_z [diagflat (map sqrtf ie); conj_t u] [[-1; 1]; [-2; 1]]%Z) (fun inv_sqrtr =>
    Ok (sqrtr, inv_sqrtr)))).

  (** 179-307 [canonicalize]; [cutoff] is [pseudo_inverse_cutoff] after 211-212, [err] is
      [truncation_threshold].  The result is the new state with the returned [lam_norm]. *)
  Definition canonicalize (left_initial right_initial : option (tensor R)) (err : option E) (D : option nat)
      (cutoff : R) (m : imps) : res (imps * R) :=
    let c0 := match centre (icell m) with Some c => c | None => 0 end in
    rbind (pos (MPS (tens (icell m)) (Some c0)) 0%Z) (fun f =>
    let ts0 := tens (fst f) in
    let n := length ts0 in
    rbind (transfer_matrix_eigs ts0 DLeft left_initial) (fun g => let '(eta, l) := g in
    rbind (get ts0 0) (fun t0 =>
    let ts1 := set_nth 0 (tdiv rdiv t0 (sqrtf (absf eta))) ts0 in
    rbind (roots_left cutoff l) (fun g => let '(sqrtl, inv_sqrtl) := g in
    rbind (transfer_matrix_eigs ts1 DRight right_initial) (fun g => let '(_, r) := g in
    rbind (roots_right cutoff r) (fun g => let '(sqrtr, inv_sqrtr) := g in
    rbind (ncon_z [sqrtl; sqrtr] [[-1; 1]; [1; -2]]%Z) (fun tmp =>
    rbind (svd_at svdf nkeep true D err tmp 1) (fun g => let '(u, s, v, _) := g in
    let lam := diagflat s in
    rbind (get ts1 0) (fun t1 =>
    rbind (ncon_z [lam; v; inv_sqrtr; t1] [[-1; 1]; [1; 2]; [2; 3]; [3; -2; -3]]%Z) (fun x =>
    let ts2 := set_nth 0 x ts1 in
    rbind (get_tensor (IMPS (MPS ts2 (Some 0)) (iconn m)) (n - 1)) (fun t2 =>
    rbind (ncon_z [t2; inv_sqrtl; u; lam] [[-1; -2; 1]; [1; 2]; [2; 3]; [3; -3]]%Z) (fun y =>
    rbind (pos (MPS (set_nth (n - 1) y ts2) (Some 0)) (Z.of_nat n - 1)%Z) (fun p =>
    let lam_norm := nrm (vec s) in
    rbind (inv (tdiv rdiv lam lam_norm)) (fun c =>
    Ok (IMPS (MPS (tens (fst p)) (Some (n - 1))) (Some c), lam_norm))))))))))))))).
End MpsInf.
Arguments IMPS {R}.
Arguments imps R : clear implicits.
