(** * KerasConvSpec: the kernel of Conv2DMPO *)
From Verif Require Import Prelude Algebra Tensor Res KerasSpec.
Set Implicit Arguments.
Unset Strict Implicit.

Section Spec.
  Context {R : csr}.
  Notation tensor := (tensor R).
  (** channel i in, channel o out, row a and column b of the kernel: i and o have k digits each, node j sees digit j of both; the first
      node sees the row, the last one the column; the bonds are summed *)
  Definition W_conv (k bond din dout : nat) (ws : list tensor) (a b i o : nat) : R :=
    let di j := nth j (unravel (repeat din k) i) 0 in
    let do_ j := nth j (unravel (repeat dout k) o) 0 in
    let w j := nth j ws (Tensor [] (fun _ => r0)) in
    nsum bond (fun x => nsum bond (fun y =>
      elt (w 0) [di 0; a; x; do_ 0] *!
      mprod bond (map (fun j => fun x y => elt (w j) [di j; x; y; do_ j]) (seq 1 (k - 2))) x y *!
      elt (w (k - 1)) [di (k - 1); y; b; do_ (k - 1)])).
  Definition is_kernel (k bond din dout kh kw : nat) (ws : list tensor) (K : tensor) : Prop :=
    shape K = [kh; kw; din ^ k; dout ^ k] /\
    forall a b i o, a < kh -> b < kw -> i < din ^ k -> o < dout ^ k -> elt K [a; b; i; o] = W_conv k bond din dout ws a b i o.
  (** the bias of the channel, for results whose last axis is the channel *)
  Definition plus_channel (bias : option tensor) (r z : tensor) : Prop :=
    shape z = shape r /\ forall ix, elt z ix = elt r ix +! bias_at bias (last ix 0).
End Spec.
