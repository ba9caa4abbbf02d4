(** * KerasSpec: dense layers and the weight matrices of the networks *)
From Verif Require Import Prelude Algebra Tensor Res Keras.
Set Implicit Arguments.
Unset Strict Implicit.

Section Spec.
  Context {R : csr}.
  Notation tensor := (tensor R).
  (** entry (a, b) of the product of matrices of dimension D *)
  Fixpoint mprod (D : nat) (ms : list (nat -> nat -> R)) (a b : nat) : R :=
    match ms with
    | [] => if a =? b then r1 else r0
    | m :: ms => nsum D (fun c => m a c *! mprod D ms c b)
    end.
  (** the layer with the map F on the last axis: every row x of the input becomes act (F x + bias) *)
  Definition bias_at (bias : option tensor) (o : nat) : R := match bias with Some b => elt b [o] | None => r0 end.
  Definition bias_ok (bias : option tensor) (out : nat) : Prop := match bias with Some b => shape b = [out] | None => True end.
  Definition is_layer (F : (nat -> R) -> nat -> R) (bias : option tensor) (act : list R -> list R) (out : nat) (inputs y : tensor) : Prop :=
    shape y = removelast (shape inputs) ++ [out] /\
    forall ix o, valid ix (removelast (shape inputs)) -> o < out ->
      elt y (ix ++ [o]) = nth o (act (map (fun o => F (fun i => elt inputs (ix ++ [i])) o +! bias_at bias o) (seq 0 out))) r0.
  (** a matrix as a map on vectors with n entries *)
  Definition by_matrix (n : nat) (W : nat -> nat -> R) (x : nat -> R) (o : nat) : R := nsum n (fun i => x i *! W i o).

  (** DenseDecomp *)
  Definition W_decomp (D : nat) (a b : tensor) (i o : nat) : R := nsum D (fun j => elt a [i; j] *! elt b [j; o]).
  (** DenseMPO: input and output index have k digits each; node j sees digit j of both; the bonds are summed *)
  Definition W_mpo (k bond din dout : nat) (ws : list tensor) (i o : nat) : R :=
    let di j := nth j (unravel (repeat din k) i) 0 in
    let do_ j := nth j (unravel (repeat dout k) o) 0 in
    let w j := nth j ws (Tensor [] (fun _ => r0)) in
    nsum bond (fun b => nsum bond (fun c =>
      elt (w 0) [di 0; b; do_ 0] *!
      mprod bond (map (fun j => fun b c => elt (w j) [di j; b; c; do_ j]) (seq 1 (k - 2))) b c *!
      elt (w (k - 1)) [di (k - 1); c; do_ (k - 1)])).
  (** DenseCondenser: the digits of the input are e_0, ..., e_(k-1) and a last one d; node j takes digit e_(k-1-j) *)
  Definition W_condenser (k base D : nat) (ws : list tensor) (i o : nat) : R :=
    let dg j := nth j (unravel (repeat base k ++ [D]) i) 0 in
    mprod D (map (fun j => fun a b => elt (nth j ws (Tensor [] (fun _ => r0))) [a; dg (k - 1 - j); b]) (seq 0 k)) (dg k) o.
  (** DenseExpander: the digits of the output are e_0, ..., e_(k-1) and a last one d; node j makes digit e_j *)
  Definition W_expander (k base D : nat) (ws : list tensor) (i o : nat) : R :=
    let dg j := nth j (unravel (repeat base k ++ [D]) o) 0 in
    mprod D (map (fun j => fun a b => elt (nth j ws (Tensor [] (fun _ => r0))) [a; dg j; b]) (seq 0 k)) i (dg k).
  (** DenseEntangler: a state gives an amplitude to every assignment of the legs; node i acts on the legs i and i + 1 (mod L);
      the amplitudes are read with the legs in the order n + 1, n + 2, ... (mod L), where n is the number of nodes *)
  Definition state := (nat -> nat) -> R.
  Definition put (s : nat -> nat) (p a : nat) : nat -> nat := fun l => if l =? p then a else s l.
  Definition gate (w : tensor) (p q : nat) (psi : state) : state := fun s =>
    nsum (nth 0 (shape w) 0) (fun a => nsum (nth 1 (shape w) 0) (fun b => psi (put (put s q b) p a) *! elt w [a; b; s p; s q])).
  Fixpoint gates (L i : nat) (ws : list tensor) (psi : state) : state :=
    match ws with
    | [] => psi
    | w :: ws => gates L (S i) ws (gate w (i mod L) ((i + 1) mod L) psi)
    end.
  Definition entangled (L din dout : nat) (ws : list tensor) (x : nat -> R) (o : nat) : R :=
    let order := map (fun j => (length ws + 1 + j) mod L) (seq 0 L) in
    let digits := unravel (repeat dout L) o in
    gates L 0 ws (fun s => x (ravel (repeat din L) (map s (seq 0 L)))) (fun l => nth (nindex l order) digits 0).

  (** an input of rank at least two whose last axis has n entries; the layer [f] on it is the one with the map F *)
  Section Input.
    Variables (bias : option tensor) (act : list R -> list R) (inputs : tensor) (d0 : nat) (mid : list nat) (n : nat).
    Definition layer_input (out : nat) : Prop :=
      shape inputs = d0 :: mid ++ [n] /\ 0 < nprod (shape inputs) /\ 0 < out /\ bias_ok bias out /\ forall l, length l = out -> length (act l) = out.
    Definition makes (f : res tensor) (F : (nat -> R) -> nat -> R) (out : nat) : Prop :=
      exists y, f = Ok y /\ is_layer F bias act out inputs y /\ shape y = output_shape (shape inputs) out.
  End Input.
End Spec.
