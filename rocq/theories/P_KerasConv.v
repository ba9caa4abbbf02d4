(** * C57: Conv2DMPO convolves with the kernel of its network and adds the bias of the channel (channels last) *)
From Coq Require Import ZArith.
From Verif Require Import Prelude Algebra Tensor TensorFacts Res Backends Keras KerasSpec KerasConv KerasConvSpec KerasConvFacts P_Keras.
Set Implicit Arguments.
Unset Strict Implicit.

Theorem C57_conv (R : csr) (round_root ceil_root : nat -> nat -> nat) (n filters k bond kh kw i o : nat) (shapes : list (list nat)) (ws : list (tensor R))
  (conv : tensor R -> tensor R -> res (tensor R)) (bias : option (tensor R)) (act : tensor R -> tensor R) (inputs : tensor R) :
  conv_build round_root ceil_root n filters k bond kh kw = Ok (i, o, shapes) -> i ^ k = n -> o ^ k = filters -> map shape ws = shapes ->
  exists K, is_kernel k bond i o kh kw ws K /\ shape K = [kh; kw; n; filters] /\
    forall r, conv inputs K = Ok r -> last (shape r) 0 = filters ->
      exists z, conv2d_mpo conv ws filters bias act inputs = Ok (act z) /\ plus_channel bias r z.
Proof. exact (@conv_main R round_root ceil_root n filters k bond kh kw i o shapes ws conv bias act inputs). Qed.
Print Assumptions C57_conv.

(** ** a concrete layer: convolution without padding, stride 1, channels last *)
Definition conv_nhwc (x K : tensor Z_csr) : res (tensor Z_csr) :=
  match shape x, shape K with
  | [N; H; W; C], [kh; kw; _; F] =>
    Ok (Tensor [N; H - kh + 1; W - kw + 1; F] (fun ix =>
      match ix with
      | [m; y; z; f] => nsum kh (fun a => nsum kw (fun b => nsum C (fun c => elt x [m; y + a; z + b; c] *! elt K [a; b; c; f])))
      | _ => r0
      end))
  | _, _ => Raise
  end.
Definition ex_conv : list (tensor Z_csr) := [zt [2; 2; 3; 2] (-2) 1; zt [2; 3; 3; 2] (-1) 1; zt [2; 3; 1; 2] (-2) 1].
Example C57_conv_ex : conv_build root root 8 8 3 3 2 1 = Ok (2, 2, map shape ex_conv) /\ 2 ^ 3 = 8 /\
  zdata (conv2d_mpo conv_nhwc ex_conv 8 (Some (zt [8] 1 1)) (fun z => z) (zt [1; 2; 1; 8] (-1) 1)) = ([1; 1; 1; 8], [24%Z; (-13)%Z; (-15)%Z; 108%Z; 111%Z; (-9)%Z; (-24)%Z; 37%Z]).
Proof. repeat split; vm_compute; reflexivity. Qed.
