(** * KrylovSpec: what the Krylov methods promise *)
From Verif Require Import Prelude Algebra Krylov KrylovFacts.
Set Implicit Arguments.
Unset Strict Implicit.

Section Spec.
  Context {K : cfd} {V : ips K}.

  Definition delta_ (i j : nat) : K := if i =? j then r1 else r0.
  (** the vectors have length 1 and are orthogonal to each other *)
  Definition orthonormal (l : list V) : Prop :=
    forall i j, i < length l -> j < length l -> ip (nth i l vz) (nth j l vz) = delta_ i j.
  Definition hermitian (A : V -> V) : Prop := forall x y, ip x (A y) = ip (A x) y.
  (** sum of c i * l[i] *)
  Definition lin (c : nat -> K) (l : list V) : V := vsum (length l) (fun i => vs (c i) (nth i l vz)).
  Definition in_span (l : list V) (x : V) : Prop := exists c, x = lin c l.
  Definition same_span (l l' : list V) : Prop := forall x, in_span l x <-> in_span l' x.
  (** x, A x, ..., A^(k-1) x *)
  Definition krylov (A : V -> V) (x : V) (k : nat) : list V := map (fun i => Nat.iter i A x) (seq 0 k).

  (** the n x n matrix m has the eigenvalues and eigenvectors (columns of U) given, in ascending order, and U is unitary *)
  Definition eigen_ok (n : nat) (m : mx K) (eu : list K * mx K) : Prop :=
    let (th, U) := eu in
    length th = n /\
    (forall i j, i < n -> j < n -> nsum n (fun k => ent m i k *! ent U k j) = nth j th r0 *! ent U i j) /\
    (forall i j, i < n -> j < n -> nsum n (fun k => cj (ent U k i) *! ent U k j) = delta_ i j) /\
    (forall i j, i < n -> j < n -> nsum n (fun k => ent U i k *! cj (ent U j k)) = delta_ i j) /\
    (forall i j, i <= j -> j < n -> cpos (nth j th r0 -! nth i th r0)).
  Definition hermitian_mx (n : nat) (m : mx K) : Prop :=
    forall i j, i < n -> j < n -> ent m i j = cj (ent m j i).
  (** the contract of [np.linalg.eigh] *)
  Definition eigh_contract (eigh : mx K -> option (list K * mx K)) : Prop :=
    forall m eu, hermitian_mx (length m) m -> eigh m = Some eu -> eigen_ok (length m) m eu.

  (** ** A Lanczos factorisation: A V = V T + r e_k^T with V orthonormal, T tridiagonal, r orthogonal to V *)
  Definition residual (A : V -> V) (kv : list V) (T : mx K) : V :=
    let k := length kv in vsub (A (nth (k - 1) kv vz)) (lin (fun i => ent T i (k - 1)) kv).
  Record factorised (A : V -> V) (kv : list V) (T : mx K) : Prop := {
    fa_on : orthonormal kv;
    fa_rec : forall j, S j < length kv -> A (nth j kv vz) = lin (fun i => ent T i j) kv;
    fa_perp : forall i, i < length kv -> ip (nth i kv vz) (residual A kv T) = r0
  }.
  (** Ritz pairs: orthonormal vectors x_j of the space spanned by kv with A x_j = theta_j x_j + c r, |c| <= 1, such
      that theta_j is the least value of <y, A y> / <y, y> over the y of the space orthogonal to the x_i, i < j *)
  Record ritz_pairs (A : V -> V) (kv : list V) (r : V) (vals : list K) (vecs : list V) : Prop := {
    rp_len : length vecs = length vals;
    rp_on : orthonormal vecs;
    rp_in : forall j, j < length vecs -> in_span kv (nth j vecs vz);
    rp_eq : forall j, j < length vecs -> exists c, cpos (r1 -! cj c *! c) /\
              A (nth j vecs vz) = va (vs (nth j vals r0) (nth j vecs vz)) (vs c r);
    rp_ray : forall i j, i < length vecs -> j < length vecs ->
               ip (nth i vecs vz) (A (nth j vecs vz)) = nth j vals r0 *! delta_ i j;
    rp_min : forall j y, j < length vecs -> in_span kv y -> (forall i, i < j -> ip (nth i vecs vz) y = r0) ->
               cpos (ip y (A y) -! nth j vals r0 *! ip y y)
  }.
  Definition tridiagonal (n : nat) (m : mx K) : Prop :=
    forall i j, i < n -> j < n -> S i < j \/ S j < i -> ent m i j = r0.
End Spec.
