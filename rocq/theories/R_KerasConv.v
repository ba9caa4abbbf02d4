(** * C57, refuted for data_format = channels_first: the bias is added along the width *)
From Coq Require Import ZArith.
From Verif Require Import Prelude Algebra Tensor TensorFacts Res Backends Keras KerasSpec KerasConv KerasConvSpec P_Keras.
Set Implicit Arguments.
Unset Strict Implicit.

(** convolution without padding, stride 1, channels first *)
Definition conv_nchw (x K : tensor Z_csr) : res (tensor Z_csr) :=
  match shape x, shape K with
  | [N; C; H; W], [kh; kw; _; F] =>
    Ok (Tensor [N; F; H - kh + 1; W - kw + 1] (fun ix =>
      match ix with
      | [m; f; y; z] => nsum kh (fun a => nsum kw (fun b => nsum C (fun c => elt x [m; c; y + a; z + b] *! elt K [a; b; c; f])))
      | _ => r0
      end))
  | _, _ => Raise
  end.
Definition w57 : list (tensor Z_csr) := [zt [2; 1; 1; 2] 1 1; zt [2; 1; 1; 2] 1 1].

(** four channels, four filters, kernel 1 x 1: with images of width 3 the layer raises, with images of width 4 it adds the bias of
    filter x to column x of every channel *)
Theorem C57_channels_first_refuted : exists (ws : list (tensor Z_csr)) (bias : tensor Z_csr), shape bias = [4] /\
  conv_build root root 4 4 2 1 1 1 = Ok (2, 2, map shape ws) /\
  (exists x, shape x = [1; 4; 1; 3] /\ conv2d_mpo conv_nchw ws 4 None (fun z => z) x <> Raise /\
     conv2d_mpo conv_nchw ws 4 (Some bias) (fun z => z) x = Raise) /\
  (exists x r z, shape x = [1; 4; 1; 4] /\ conv2d_mpo conv_nchw ws 4 None (fun z => z) x = Ok r /\ shape r = [1; 4; 1; 4] /\
     conv2d_mpo conv_nchw ws 4 (Some bias) (fun z => z) x = Ok z /\ elt z [0; 2; 0; 1] <> elt r [0; 2; 0; 1] +! elt bias [2]).
Proof.
  exists w57, (zt [4] 0 1). split; [reflexivity|]. split; [vm_compute; reflexivity|]. split.
  - exists (zt [1; 4; 1; 3] 1 1). split; [reflexivity|]. split; [discriminate|reflexivity].
  - eexists (zt [1; 4; 1; 4] 1 1), _, _. split; [reflexivity|]. split; [reflexivity|]. split; [reflexivity|]. split; [reflexivity|]. vm_compute. discriminate.
Qed.
Print Assumptions C57_channels_first_refuted.
