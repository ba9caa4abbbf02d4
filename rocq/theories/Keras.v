(** * Keras: model of the dense layers of tensornetwork/tn_keras (dense.py, mpo.py, condenser.py, expander.py, entangler.py).

    Weights are arbitrary arrays of the shapes made in [build]; the input is an array whose shape is known.  Node contractions are
    written as [tensordot] over the connected axes, remaining axes in order, which is what C01 proves of [contract_between] (and of
    [@]); the dimension check of [connect] and [^] is kept.  [n ** (1. / k)] is a floating point number: [round_root n k] and
    [ceil_root n k] stand for [round] and [math.ceil] of it.  The activation is a function [act] on the last axis (the identity
    if there is none).  [tf.vectorized_map] is a map over the rows.
    Left out: keras' bookkeeping (names, initializers, trainability, serialisation), dtypes, unknown dimensions ([None]). *)
From Verif Require Import Prelude Algebra Tensor Res Backends.
Set Implicit Arguments.
Unset Strict Implicit.

Section Keras.
  Context {R : csr}.
  Notation tensor := (tensor R).

  (** [tf.reshape(t, s)]; with a leading -1; to a vector, [(-1,)] *)
  Definition to_shape (t : tensor) (s : list nat) : res tensor :=
    if nprod s =? nprod (shape t) then Ok (reshape t s) else Raise.
  Definition to_shape_infer (t : tensor) (dims : list nat) : res tensor :=
    let m := nprod dims in
    if (m =? 0) || negb (nprod (shape t) mod m =? 0) then Raise else Ok (reshape t (nprod (shape t) / m :: dims)).
  Definition flat (t : tensor) : tensor := reshape t [nprod (shape t)].
  (** connected axes contracted *)
  Definition link (a b : tensor) (ax bx : list nat) : res tensor :=
    if list_eqb (gather 0 (shape a) ax) (gather 0 (shape b) bx) then Ok (tensordot a b ax bx) else Raise.
  (** [if use_bias: result += bias_var]; [None] without bias *)
  Definition plus_bias (y : tensor) (bias : option tensor) : res tensor :=
    match bias with
    | None => Ok y
    | Some b => if list_eqb (shape b) [last (shape y) 0] then Ok (Tensor (shape y) (fun ix => elt y ix +! elt b [last ix 0])) else Raise
    end.

  (** the common part of [call] (dense.py:132-140, mpo.py:178-186, condenser.py:143-151, expander.py:143-151, entangler.py:179-187):
      rows of the input, [f] of every row, activation, shape of the output *)
  Definition rows_of (w : nat) (l : list R) : list (list R) := map (fun k => firstn w (skipn (k * w) l)) (seq 0 (length l / w)).
  Definition call (f : tensor -> res tensor) (act : list R -> list R) (out : nat) (inputs : tensor) : res tensor :=
    match shape inputs with
    | [] => Raise
    | s =>
      let n := last s 0 in
      if n =? 0 then Raise
      else
        let rows := reshape inputs [nprod s / n; n] in
        rbind (mapr (fun k => f (Tensor [n] (fun ix => elt rows (k :: ix)))) (seq 0 (nprod s / n))) (fun ys =>
        let data := flat_map act (rows_of out (flat_map (@to_list R) ys)) in
        to_shape_infer (of_list [length data] data) (removelast (tl s) ++ [out]))
    end.
  (** [compute_output_shape] *)
  Definition output_shape (s : list nat) (out : nat) : list nat := removelast s ++ [out].

  (** ** DenseDecomp (dense.py): [build] 82-103, [f] 108-131 *)
  Definition decomp_shapes (n decomp out : nat) : list nat * list nat := ([n; decomp], [decomp; out]).
  Definition decomp_f (a b : tensor) (bias : option tensor) (x : tensor) : res tensor :=
    rbind (link a x [0] [0]) (fun c => rbind (link c b [0] [0]) (fun y => plus_bias y bias)).
  Definition dense_decomp (out : nat) (a b : tensor) (bias : option tensor) (act : list R -> list R) (inputs : tensor) : res tensor :=
    call (decomp_f a b bias) act out inputs.

  (** ** DenseMPO (mpo.py): [__init__] 57-83, [build] 85-138, [f] 142-176 *)
  Section Roots.
    Variables round_root ceil_root : nat -> nat -> nat.
    Definition is_perfect_root (n k : nat) : bool := round_root n k ^ k =? n.
    (** leg dimensions and the shapes of the weights *)
    Definition mpo_build (n out k bond : nat) : res (nat * nat * list (list nat)) :=
      if negb (2 <? k) then Raise
      else if negb (is_perfect_root n k) then Raise
      else if negb (is_perfect_root out k) then Raise
      else
        let i := ceil_root n k in
        let o := ceil_root out k in
        Ok (i, o, [i; bond; o] :: repeat [i; bond; bond; o] (k - 2) ++ [[i; bond; o]]).
  End Roots.
  (** the loop 168-170: the axes of [temp] are the remaining inputs, the finished outputs, the bond, the last output *)
  Fixpoint mpo_loop (k : nat) (t : tensor) (nodes : list tensor) : res tensor :=
    match nodes with
    | [] => Ok t
    | w :: nodes => rbind (link t w [0; k - 1] [0; 1]) (fun t => mpo_loop k t nodes)
    end.
  Definition mpo_f (nodes : list tensor) (k i out : nat) (bias : option tensor) (x : tensor) : res tensor :=
    rbind (to_shape x (repeat i k)) (fun x =>
    match nodes with
    | [] => Raise
    | w :: nodes =>
      rbind (link x w [0] [0]) (fun t => rbind (mpo_loop k t nodes) (fun t =>
      rbind (to_shape_infer t [out]) (fun y => plus_bias y bias)))
    end).
  Definition dense_mpo (k i out : nat) (nodes : list tensor) (bias : option tensor) (act : list R -> list R) (inputs : tensor) : res tensor :=
    call (mpo_f nodes k i out bias) act out inputs.

  (** ** DenseCondenser (condenser.py): [build] 87-110, [f] 114-141 *)
  Definition condenser_out (n base k : nat) : nat := n / base ^ k.
  Definition condenser_shapes (out base k : nat) : list (list nat) := repeat [out; base; out] k.
  Fixpoint condenser_loop (t : tensor) (nodes : list tensor) : res tensor :=
    match nodes with
    | [] => Ok t
    | w :: nodes => rbind (link t w [rank t - 1; rank t - 2] [0; 1]) (fun t => condenser_loop t nodes)
    end.
  Definition condenser_f (nodes : list tensor) (base out : nat) (bias : option tensor) (x : tensor) : res tensor :=
    rbind (to_shape x (repeat base (length nodes) ++ [out])) (fun x =>
    rbind (condenser_loop x nodes) (fun t => plus_bias (flat t) bias)).
  Definition dense_condenser (n base k : nat) (nodes : list tensor) (bias : option tensor) (act : list R -> list R) (inputs : tensor) :
    res tensor :=
    call (condenser_f nodes base (condenser_out n base k) bias) act (condenser_out n base k) inputs.

  (** ** DenseExpander (expander.py): [build] 87-110, [f] 114-141 *)
  Definition expander_out (n base k : nat) : nat := n * base ^ k.
  Definition expander_shapes (n base k : nat) : list (list nat) := repeat [n; base; n] k.
  Fixpoint expander_loop (t : tensor) (nodes : list tensor) : res tensor :=
    match nodes with
    | [] => Ok t
    | w :: nodes => rbind (link t w [rank t - 1] [0]) (fun t => expander_loop t nodes)
    end.
  Definition expander_f (nodes : list tensor) (bias : option tensor) (x : tensor) : res tensor :=
    rbind (expander_loop x nodes) (fun t => plus_bias (flat t) bias).
  Definition dense_expander (n base k : nat) (nodes : list tensor) (bias : option tensor) (act : list R -> list R) (inputs : tensor) :
    res tensor :=
    call (expander_f nodes bias) act (expander_out n base k) inputs.

  (** ** DenseEntangler (entangler.py): [__init__] 65-94, [build] 96-143, [f] 147-177 *)
  Section Entangler.
    Variable round_root : nat -> nat -> nat.
    Definition entangler_shape (leg out_leg legs levels i : nat) : list nat :=
      let nodes := levels * (legs - 1) in
      let level := i / (legs - 1) in
      let m := Nat.min leg out_leg in
      [if i =? 0 then leg else m; if level =? 0 then leg else m;
       if level =? levels - 1 then out_leg else m; if i =? nodes - 1 then out_leg else m].
    Definition entangler_build (n out legs levels : nat) : res (nat * nat * list (list nat)) :=
      if negb (2 <=? legs) then Raise
      else if negb (1 <=? levels) then Raise
      else if negb (is_perfect_root round_root n legs) then Raise
      else if negb (is_perfect_root round_root out legs) then Raise
      else
        let leg := round_root n legs in
        let out_leg := round_root out legs in
        Ok (leg, out_leg, map (entangler_shape leg out_leg legs levels) (seq 0 (levels * (legs - 1)))).
  End Entangler.
  (** the loop 155-161; [ls] lists, for every axis of the state node, the leg whose entry of [edges] is the edge of that axis *)
  Fixpoint entangler_loop (legs i : nat) (t : tensor) (ls : list nat) (nodes : list tensor) : res tensor :=
    match nodes with
    | [] => Ok t
    | w :: nodes =>
      let p := i mod legs in
      let q := (i + 1) mod legs in
      rbind (link t w [nindex p ls; nindex q ls] [0; 1]) (fun t =>
      entangler_loop legs (S i) t (filter (fun l => negb (l =? p) && negb (l =? q)) ls ++ [p; q]) nodes)
    end.
  Definition entangler_f (nodes : list tensor) (legs leg out : nat) (bias : option tensor) (x : tensor) : res tensor :=
    rbind (to_shape x (repeat leg legs)) (fun x =>
    rbind (entangler_loop legs 0 x (seq 0 legs) nodes) (fun t =>
    rbind (to_shape t [out]) (fun y => plus_bias y bias))).
  Definition dense_entangler (legs leg out : nat) (nodes : list tensor) (bias : option tensor) (act : list R -> list R) (inputs : tensor) :
    res tensor :=
    call (entangler_f nodes legs leg out bias) act out inputs.
End Keras.
