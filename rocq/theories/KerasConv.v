(** * KerasConv: model of Conv2DMPO (tensornetwork/tn_keras/conv2d_mpo.py).

    [tf.nn.conv2d] with the strides, padding, format and dilations of the layer is a parameter [conv] (inputs, kernel); the activation is
    a function of the array.  The contractor (209) contracts the chain from left to right here; that the schedule does not matter is C02, that
    the greedy one contracts everything is C23.  Left out: regularizers, [compute_output_shape] (it only repeats the arithmetic of conv2d). *)
From Verif Require Import Prelude Algebra Tensor Res Backends Keras.
Set Implicit Arguments.
Unset Strict Implicit.

Section Conv.
  Context {R : csr}.
  Notation tensor := (tensor R).

  (** [__init__] 108-109, [build] 137-198: leg dimensions and shapes of the weights *)
  Definition conv_build (round_root ceil_root : nat -> nat -> nat) (n filters k bond kh kw : nat) : res (nat * nat * list (list nat)) :=
    if k <? 2 then Raise
    else if negb (is_perfect_root round_root n k) then Raise
    else if negb (is_perfect_root round_root filters k) then Raise
    else
      let i := ceil_root n k in
      let o := ceil_root filters k in
      Ok (i, o, [i; kh; bond; o] :: repeat [i; bond; bond; o] (k - 2) ++ [[i; bond; kw; o]]).

  (** the chain: the axes of the partial result are those of the nodes in turn, without the bonds contracted *)
  Fixpoint conv_loop (t : tensor) (nodes : list tensor) : res tensor :=
    match nodes with
    | [] => Ok t
    | w :: nodes => rbind (link t w [rank t - 2] [1]) (fun t => conv_loop t nodes)
    end.
  (** [edges] 207: kernel height, kernel width, inputs, outputs; positions of these axes in the chain of k nodes *)
  Definition conv_edges (k : nat) : list nat :=
    [1; 2 * k] ++ (0 :: map (fun j => 2 * j + 1) (seq 1 (k - 1))) ++ (map (fun j => 2 * j + 2) (seq 0 (k - 1)) ++ [2 * k + 1]).
  (** [tn.flatten_edges] of dangling edges: moved to the end, then made one axis (network_components.py:1367-1457) *)
  Definition flatten_back (t : tensor) (axes : list nat) : tensor :=
    let f := free_axes (rank t) axes in
    reshape (transpose t (f ++ axes)) (gather 0 (shape t) f ++ [nprod (gather 0 (shape t) axes)]).
  (** [call] 202-211 *)
  Definition conv_kernel (nodes : list tensor) : res tensor :=
    match nodes with
    | [] => Raise
    | w :: ws =>
      rbind (conv_loop w ws) (fun t =>
      let k := length nodes in
      Ok (flatten_back (flatten_back (transpose t (conv_edges k)) (seq 2 k)) (seq 2 k)))
    end.
  (** [result += bias] with bias of shape (1, filters): broadcast along the last axis (221-223) *)
  Definition add_bias (r : tensor) (bias : option tensor) (filters : nat) : res tensor :=
    match bias with
    | None => Ok r
    | Some b =>
      let c := last (shape r) 0 in
      if c =? filters then Ok (Tensor (shape r) (fun ix => elt r ix +! elt b [last ix 0]))
      else if filters =? 1 then Ok (Tensor (shape r) (fun ix => elt r ix +! elt b [0]))
      else if c =? 1 then Ok (Tensor (removelast (shape r) ++ [filters]) (fun ix => elt r (removelast ix ++ [0]) +! elt b [last ix 0]))
      else Raise
    end.
  (** [call] 200-227 *)
  Definition conv2d_mpo (conv : tensor -> tensor -> res tensor) (nodes : list tensor) (filters : nat) (bias : option tensor)
    (act : tensor -> tensor) (inputs : tensor) : res tensor :=
    rbind (conv_kernel nodes) (fun K => rbind (conv inputs K) (fun r => rbind (add_bias r bias filters) (fun r => Ok (act r)))).
End Conv.
