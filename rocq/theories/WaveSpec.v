(** * WaveSpec: operators on some of the sites of a dense wavefunction *)
From Coq Require Import List.
From Verif Require Import Prelude Algebra Tensor.
Import ListNotations.
Set Implicit Arguments.
Unset Strict Implicit.

Section WaveSpec.
  Context {R : csr}.

  (** the list [l] with the entries at the positions [ts] replaced by [xs] *)
  Fixpoint position (j : nat) (ts : list nat) : option nat :=
    match ts with [] => None | t :: ts' => if j =? t then Some 0 else option_map S (position j ts') end.
  Definition over (l ts xs : list nat) : list nat :=
    map (fun j => match position j ts with Some k => nth k xs 0 | None => nth j l 0 end) (seq 0 (length l)).

  (** (op psi)(ys) = sum over vs of op(ys at ts, vs) psi(ys with vs at ts) *)
  Definition act (ts : list nat) (op psi : tensor R) : tensor R :=
    let w := length ts in
    Tensor (over (shape psi) ts (firstn w (shape op)))
      (fun ys => lsum (idxs (skipn w (shape op))) (fun vs =>
         rmul (elt op (map (fun t => nth t ys 0) ts ++ vs)) (elt psi (over ys ts vs)))).
  (** the operator takes the dimensions of the sites [ts] *)
  Definition takes (ts : list nat) (op psi : tensor R) : Prop :=
    NoDup ts /\ (forall t, In t ts -> t < rank psi) /\ 0 < length ts /\ rank op = length ts + length ts /\
    skipn (length ts) (shape op) = map (fun t => nth t (shape psi) 0) ts.

  (** the sites of an operator of [w] sites at [n1], without and with periodic boundary conditions *)
  Definition window (N n1 w : nat) (pbc : bool) : list nat := map (fun m => if pbc then (n1 + m) mod N else n1 + m) (seq 0 w).

  (** a circuit: operators with their first sites, applied from left to right *)
  Definition sites_of (g : nat * tensor R) : list nat := seq (fst g) (rank (snd g) / 2).
  Fixpoint run (gs : list (nat * tensor R)) (psi : tensor R) : tensor R :=
    match gs with [] => psi | g :: gs' => run gs' (act (sites_of g) (snd g) psi) end.
  Fixpoint runs_ok (gs : list (nat * tensor R)) (psi : tensor R) : Prop :=
    match gs with [] => True | g :: gs' => takes (sites_of g) (snd g) psi /\ runs_ok gs' (act (sites_of g) (snd g) psi) end.

  (** the operators of a layer, of the sites below [N] *)
  Definition placed (N : nat) (gates : list (option (tensor R))) : list (nat * tensor R) :=
    flat_map (fun n => match nth n gates None with Some g => [(n, g)] | None => [] end) (seq 0 N).
  (** no operator begins inside another one *)
  Definition apart (N : nat) (gates : list (option (tensor R))) : Prop :=
    forall n n' g g', nth n gates None = Some g -> nth n' gates None = Some g' -> n < n' < N -> n + rank g / 2 <= n'.

  (** a chain of two-site operators that keep the dimensions of the sites *)
  Definition chain (G : list (tensor R)) (psi : tensor R) : Prop :=
    S (length G) = rank psi /\ forall n g, nth_error G n = Some g ->
      shape g = [nth n (shape psi) 0; nth (S n) (shape psi) 0; nth n (shape psi) 0; nth (S n) (shape psi) 0].
  (** the operators with an even or odd number; a step applies the even ones, then the odd ones *)
  Definition half (odd : bool) (G : list (tensor R)) : list (nat * tensor R) :=
    flat_map (fun n => if Bool.eqb (Nat.odd n) odd then match nth_error G n with Some g => [(n, g)] | None => [] end else []) (seq 0 (length G)).
  Definition step (G : list (tensor R)) (psi : tensor R) : tensor R := run (half true G) (run (half false G) psi).
  (** [k] steps, with [post] after each *)
  Fixpoint steps (post : tensor R -> tensor R) (G : list (tensor R)) (k : nat) (psi : tensor R) : tensor R :=
    match k with 0 => psi | S k' => steps post G k' (post (step G psi)) end.
  (** the matrix c h of a two-site term: rows and columns are pairs *)
  Definition term_matrix (c : R) (h : tensor R) : tensor R :=
    let d := fun k => nth k (shape h) 0 in
    Tensor [d 0 * d 1; d 2 * d 3] (fun ix => match ix with
      | [r; q] => rmul c (elt h [r / d 1; r mod d 1; q / d 3; q mod d 3])
      | _ => r0 end).
End WaveSpec.
