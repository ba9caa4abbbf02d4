(** * MpoFermionSpec: fermions in the occupation number basis, and hopping on a rectangular lattice *)
From Verif Require Import Prelude Algebra Tensor MpoSpec.
Set Implicit Arguments.
Unset Strict Implicit.

Section Spec.
  Context {R : csr}.
  Variable mone : R.
  (** a basis state lists the occupation (0 or 1) of every mode; [(a, s)] is a times the basis state s, [None] the zero vector *)
  Definition ket := option (R * list nat).
  Definition parity (l : list nat) : R := lprod l (fun n => if n =? 1 then mone else r1).
  Definition put (j v : nat) (s : list nat) : list nat := firstn j s ++ v :: skipn (S j) s.
  (** the annihilation and the creation operator of mode j: the sign is that of the number of particles in earlier modes *)
  Definition lower (j : nat) (k : ket) : ket :=
    match k with
    | Some (a, s) => if nth j s 0 =? 1 then Some (parity (firstn j s) *! a, put j 0 s) else None
    | None => None
    end.
  Definition raise_ (j : nat) (k : ket) : ket :=
    match k with
    | Some (a, s) => if nth j s 1 =? 0 then Some (parity (firstn j s) *! a, put j 1 s) else None
    | None => None
    end.
  (** the coefficient of the basis state s *)
  Definition amp (s : list nat) (k : ket) : R :=
    match k with Some (a, s2) => if list_eq_dec Nat.eq_dec s2 s then a else r0 | None => r0 end.
  (** <s| c+_i c_j |s'> *)
  Definition hop (i j : nat) (s s' : list nat) : R := amp s (raise_ i (lower j (Some (r1, s')))).

  (** mode of the site at height x < N1 in column y < N2 *)
  Definition site (N1 x y : nat) : nat := N1 * y + x.
  (** v sum_p n_p + t1 sum over vertical bonds (c+_p c_q + c+_q c_p) + t2 sum over horizontal bonds (c+_p c_q + c+_q c_p) *)
  Definition H_ff (t1 t2 v : R) (N1 N2 : nat) (s s' : list nat) : R :=
    let bond p q := hop p q s s' +! hop q p s s' in
    v *! nsum N2 (fun y => nsum N1 (fun x => hop (site N1 x y) (site N1 x y) s s')) +!
    t1 *! nsum N2 (fun y => nsum (N1 - 1) (fun x => bond (site N1 x y) (site N1 (S x) y))) +!
    t2 *! nsum (N2 - 1) (fun y => nsum N1 (fun x => bond (site N1 x y) (site N1 x (S y)))).
End Spec.
