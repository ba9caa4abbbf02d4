(** * MpsInfSpec: what an infinite matrix product state means, independently of the code of MpsInf.v *)
From Coq Require Import List.
From Verif Require Import Prelude Res Algebra Tensor MpsSpec.
Import ListNotations.
Set Implicit Arguments.
Unset Strict Implicit.
Local Open Scope nat_scope.
Local Open Scope csr_scope.

Section Spec.
  Context {R : cjr}.
  Notation tensor := (Tensor.tensor R).

  (** the matrix of a unit cell in the configuration [sg], followed by the matrix that connects it to the next cell *)
  Definition cell (ts : list tensor) (conn : option tensor) (a : nat) (sg : list nat) (b : nat) : R :=
    match conn with
    | None => amp ts a sg b
    | Some c => nsum (nth 0 (shape c) 0) (fun x => amp ts a sg x *! elt c [x; b])
    end.
  (** the connecting matrix first *)
  Definition cell_from_left (ts : list tensor) (c : tensor) (a : nat) (sg : list nat) (b : nat) : R :=
    nsum (nth 1 (shape c) 0) (fun x => elt c [a; x] *! amp ts x sg b).
  (** the product of the matrices of consecutive cells *)
  Fixpoint word (D : nat) (f : nat -> list nat -> nat -> R) (ws : list (list nat)) (a b : nat) : R :=
    match ws with
    | [] => if a =? b then r1 else r0
    | w :: r => nsum D (fun c => f a w c *! word D f r c b)
    end.
  (** the amplitude of a ring of cells *)
  Definition ring_amp (D : nat) (f : nat -> list nat -> nat -> R) (ws : list (list nat)) : R :=
    nsum D (fun a => word D f ws a a).

  (** the matrices [f . sg .], together, are isometric from the left and from the right *)
  Definition left_normal (k : nat) (ph : list nat) (f : nat -> list nat -> nat -> R) : Prop :=
    forall i j, i < k -> j < k ->
    nsum k (fun a => lsum (idxs ph) (fun sg => f a sg i *! cj (f a sg j))) = if i =? j then r1 else r0.
  Definition right_normal (k : nat) (ph : list nat) (f : nat -> list nat -> nat -> R) : Prop :=
    forall i j, i < k -> j < k ->
    nsum k (fun b => lsum (idxs ph) (fun sg => f i sg b *! cj (f j sg b))) = if i =? j then r1 else r0.

  (** [x] is an eigenvector of the map [x -> sum_sg M_sg^T x conj(M_sg)] (resp. [x -> sum_sg M_sg x M_sg^dagger]) of a cell *)
  Definition left_eigen (D : nat) (ts : list tensor) (eta : R) (x : nat -> nat -> R) : Prop :=
    forall i j, i < D -> j < D ->
    nsum D (fun a => nsum D (fun b => x a b *! lsum (idxs (phys ts)) (fun sg => amp ts a sg i *! cj (amp ts b sg j)))) = eta *! x i j.
  Definition right_eigen (D : nat) (ts : list tensor) (eta : R) (x : nat -> nat -> R) : Prop :=
    forall i j, i < D -> j < D ->
    nsum D (fun a => nsum D (fun b => x a b *! lsum (idxs (phys ts)) (fun sg => amp ts i sg a *! cj (amp ts j sg b)))) = eta *! x i j.

  (** contracts of the library functions *)
  (** [eigs] returns an eigenvector, if it returns *)
  Definition eigs_ok (eigs : (tensor -> res tensor) -> tensor -> res (R * tensor)) : Prop :=
    forall f v0 eta y, eigs f v0 = Ok (eta, y) ->
    shape y = shape v0 /\ exists z k, f y = Ok z /\ shape z = shape y /\ forall ix, valid ix (shape y) -> elt z ix = k *! elt y ix.
  (** [eigh] diagonalises Hermitian matrices by a unitary matrix; the eigenvalues are real *)
  Definition eigh_ok (eigh : tensor -> res (list R * tensor)) : Prop :=
    forall m w u n, shape m = [n; n] -> (forall i j, i < n -> j < n -> elt m [i; j] = cj (elt m [j; i])) -> eigh m = Ok (w, u) ->
    length w = n /\ shape u = [n; n] /\ (forall x, In x w -> cj x = x) /\
    (forall i j, i < n -> j < n -> nsum n (fun c => elt u [i; c] *! cj (elt u [j; c])) = if i =? j then r1 else r0) /\
    (forall i j, i < n -> j < n -> nsum n (fun c => cj (elt u [c; i]) *! elt u [c; j]) = if i =? j then r1 else r0) /\
    (forall i j, i < n -> j < n -> elt m [i; j] = nsum n (fun c => elt u [i; c] *! nth c w r0 *! cj (elt u [j; c]))).
  (** [inv] returns an inverse on both sides *)
  Definition inv_ok (inv : tensor -> res tensor) : Prop :=
    forall m y n, shape m = [n; n] -> inv m = Ok y -> shape y = [n; n] /\
    forall i j, i < n -> j < n -> nsum n (fun c => elt m [i; c] *! elt y [c; j]) = (if i =? j then r1 else r0) /\
                                  nsum n (fun c => elt y [i; c] *! elt m [c; j]) = (if i =? j then r1 else r0).
  (** the square root of a real number beyond the cutoff and of its inverse *)
  Definition sqrt_ok (rdiv : R -> R -> R) (sqrtf : R -> R) (le : R -> R -> bool) (cutoff : R) : Prop :=
    forall x, cj x = x -> le x cutoff = false ->
    sqrtf x *! sqrtf x = x /\ cj (sqrtf x) = sqrtf x /\ cj (sqrtf (rdiv r1 x)) = sqrtf (rdiv r1 x) /\ sqrtf x *! sqrtf (rdiv r1 x) = r1.
  (** a matrix that becomes Hermitian when it is divided by its trace, with eigenvalues that, divided by their norm,
      are all beyond the cutoff *)
  Definition positive (nrm : tensor -> R) (rdiv : R -> R -> R) (eigh : tensor -> res (list R * tensor)) (le : R -> R -> bool) (cutoff : R)
      (D : nat) (x : nat -> nat -> R) : Prop :=
    let z := nsum D (fun i => x i i) in
    z <> r0 /\ (forall i j, i < D -> j < D -> rdiv (x i j) z = cj (rdiv (x j i) z)) /\
    forall h w u v, shape h = [D; D] -> (forall i j, i < D -> j < D -> elt h [i; j] = rdiv (x i j) z) -> eigh h = Ok (w, u) ->
      shape v = [length w] -> (forall i, i < length w -> elt v [i] = nth i w r0) ->
      forall e, In e w -> le (rdiv e (nrm v)) cutoff = false.
  (** the norm is the square root of the sum of the squares; it vanishes for zero only *)
  Definition norm_sq (nrm : tensor -> R) : Prop :=
    norm_ok nrm /\ forall t, cj (nrm t) = nrm t /\ nrm t *! nrm t = lsum (idxs (shape t)) (fun ix => elt t ix *! cj (elt t ix)).
End Spec.
