(** * Backends: model of the tensor contraction and matrix factorisation routines of
    tensornetwork/backends.

    [tensordot2] is tensorflow/tensordot2.py for operands of known shape and axes given as
    python lists (128-143; the graph-mode cases 144-187 with unknown shapes are not modelled).
    [np_tensordot] is numpy/numpy_backend.py:35-54.  [svd], [qr], [rq] are
    numpy/decompositions.py; the library routines [np.linalg.svd] and [np.linalg.qr] are
    arguments.  Axes are integers and may be negative. *)
From Coq Require Import ZArith.
From Verif Require Import Prelude Res Algebra Tensor.
Set Implicit Arguments.
Unset Strict Implicit.

(** numpy's normalisation of axes; anything out of range raises *)
Definition norm_axis (n : nat) (i : Z) : Z := (if i <? 0 then i + Z.of_nat n else i)%Z.
Definition norm_axes (n : nat) (axes : list Z) : res (list nat) :=
  if forallb (fun i => (0 <=? norm_axis n i) && (norm_axis n i <? Z.of_nat n))%Z axes
  then Ok (map (fun i => Z.to_nat (norm_axis n i)) axes)
  else Raise.

Definition list_eqb (a b : list nat) : bool := if list_eq_dec Nat.eq_dec a b then true else false.

Section Tensordot.
  Context {R : csr}.

  (** tensordot2.py:62-78; [np.mean(c) < np.mean(f)] cleared of denominators *)
  Definition should_flip (contraction free : list nat) : bool :=
    match contraction, free with
    | [], _ | _, [] => false
    | _, _ => list_sum contraction * length free <? list_sum free * length contraction
    end.
  (** tensordot2.py:80-88; [tf.transpose] raises unless [perm] is a permutation of the axes *)
  Definition transpose_if_necessary (t : tensor R) (perm : list nat) : res (tensor R) :=
    if list_eqb perm (seq 0 (length perm)) then Ok t
    else if is_permb (rank t) perm then Ok (transpose t perm) else Raise.
  (** tensordot2.py:90-99; [tf.reshape] raises unless the sizes agree *)
  Definition reshape_if_necessary (t : tensor R) (s : list nat) : res (tensor R) :=
    if list_eqb s (shape t) then Ok t
    else if nprod s =? nprod (shape t) then Ok (reshape t s) else Raise.
  (** tensordot2.py:128-143 [_tensordot_reshape]: matrix, free dimensions, transpose_needed *)
  Definition tensordot_reshape (t : tensor R) (axes : list Z) (is_right_term : bool)
    : res (tensor R * list nat * bool) :=
    rbind (norm_axes (rank t) axes) (fun axes =>
      let free := free_axes (rank t) axes in
      let flipped := should_flip axes free in
      let free_dims := gather 0 (shape t) free in
      let prod_free := nprod free_dims in
      let prod_axes := nprod (gather 0 (shape t) axes) in
      let perm := if flipped then axes ++ free else free ++ axes in
      let new_shape := if flipped then [prod_axes; prod_free] else [prod_free; prod_axes] in
      rbind (transpose_if_necessary t perm) (fun tt =>
      rbind (reshape_if_necessary tt new_shape) (fun rt =>
        Ok (rt, free_dims, if is_right_term then negb flipped else flipped)))).
  (** [tf.matmul(a, b, transpose_a=ta, transpose_b=tb)] of two matrices *)
  Definition tmatmul (a b : tensor R) (ta tb : bool) : res (tensor R) :=
    match shape a, shape b with
    | [a0; a1], [b0; b1] =>
        let (m, k) := if ta then (a1, a0) else (a0, a1) in
        let (k', n) := if tb then (b1, b0) else (b0, b1) in
        if k =? k' then
          Ok (Tensor [m; n] (fun ix =>
            nsum k (fun l =>
              elt a (if ta then [l; nth 0 ix 0] else [nth 0 ix 0; l]) *!
              elt b (if tb then [nth 1 ix 0; l] else [l; nth 1 ix 0]))))
        else Raise
    | _, _ => Raise
    end.
  (** tensordot2.py:224 [sorted(zip(a_axes, b_axes))]: lexicographic order on pairs *)
  Definition pair_leb (p q : Z * Z) : bool :=
    ((fst p <? fst q) || ((fst p =? fst q) && (snd p <=? snd q)))%Z.
  (** tensordot2.py:189-228 [_tensordot_axes], lists *)
  Definition sorted_axes (a_axes b_axes : list Z) : res (list Z * list Z) :=
    if length a_axes =? length b_axes then
      Ok (split (sort pair_leb (combine a_axes b_axes)))
    else Raise.
  (** tensordot2.py:230-243 *)
  Definition tensordot2 (a b : tensor R) (a_axes b_axes : list Z) : res (tensor R) :=
    rbind (sorted_axes a_axes b_axes) (fun ab =>
    rbind (tensordot_reshape a (fst ab) false) (fun ra =>
    rbind (tensordot_reshape b (snd ab) true) (fun rb =>
      let '(am, af, at_) := ra in
      let '(bm, bf, bt) := rb in
      rbind (tmatmul am bm at_ bt) (fun ab =>
        if nprod (af ++ bf) =? nprod (shape ab) then Ok (reshape ab (af ++ bf)) else Raise)))).
  (** tensordot2.py:192-200: an integer number of axes *)
  Definition int_axes (rank_a : nat) (n : Z) : res (list Z * list Z) :=
    (if (n <? 0) || (Z.of_nat rank_a <? n) then Raise
     else Ok (map Z.of_nat (seq (rank_a - Z.to_nat n) (Z.to_nat n)), map Z.of_nat (seq 0 (Z.to_nat n))))%Z.
  Definition tensordot2_int (a b : tensor R) (n : Z) : res (tensor R) :=
    rbind (int_axes (rank a) n) (fun ab =>
    rbind (tensordot_reshape a (fst ab) false) (fun ra =>
    rbind (tensordot_reshape b (snd ab) true) (fun rb =>
      let '(am, af, at_) := ra in
      let '(bm, bf, bt) := rb in
      rbind (tmatmul am bm at_ bt) (fun ab =>
        if nprod (af ++ bf) =? nprod (shape ab) then Ok (reshape ab (af ++ bf)) else Raise)))).

  (** ** numpy_backend.py:35-54 *)

  (** [np.tensordot] with axes in range, distinct and of equal dimensions; anything else raises *)
  Definition np_tensordot_general (a b : tensor R) (ax bx : list Z) : res (tensor R) :=
    rbind (norm_axes (rank a) ax) (fun ax =>
    rbind (norm_axes (rank b) bx) (fun bx =>
      if list_eqb (gather 0 (shape a) ax) (gather 0 (shape b) bx)
         && is_permb (rank a) (free_axes (rank a) ax ++ ax)
         && is_permb (rank b) (free_axes (rank b) bx ++ bx)
      then Ok (tensordot a b ax bx) else Raise)).
  (** [np.einsum("labels1,labels2", a, b)] when every label occurs exactly once in each operand:
      labels are natural numbers (the code has the letters A-Z, 26 of them) *)
  Definition einsum_inner (l1 l2 : list nat) (a b : tensor R) : res (tensor R) :=
    let n := length l1 in
    if (rank a =? n) && (rank b =? length l2) && is_permb n l1 && is_permb n l2
       && list_eqb (unperm 0 l1 (shape a)) (unperm 0 l2 (shape b))
    then Ok (Tensor [] (fun _ =>
           lsum (idxs (unperm 0 l1 (shape a))) (fun v => elt a (gather 0 v l1) *! elt b (gather 0 v l2))))
    else Raise.
  (** 42-50: [np.intersect1d], [labels[pos1]] and [labels_2[axes[1]] = labels]; [letters] is the
      number of available labels, [None] an empty string *)
  Definition zsort (l : list Z) : list Z := sort Z.leb l.
  Definition zindex (x : Z) (l : list Z) : nat := index_of Z.eq_dec x l.
  Definition zmem (x : Z) (l : list Z) : bool := if in_dec Z.eq_dec x l then true else false.
  Fixpoint put_label (i : nat) (v : nat) (l : list (option nat)) : list (option nat) :=
    match l, i with
    | [], _ => []
    | _ :: r, 0 => Some v :: r
    | x :: r, S k => x :: put_label k v r
    end.
  Fixpoint all_some (l : list (option nat)) : res (list nat) :=
    match l with
    | [] => Ok []
    | Some x :: r => rbind (all_some r) (fun r' => Ok (x :: r'))
    | None :: _ => Raise
    end.
  Definition np_tensordot (letters : nat) (a b : tensor R) (ax bx : list Z) : res (tensor R) :=
    if (length ax =? rank a) && (length bx =? rank b) then
      if negb (length ax =? length bx) then Raise
      else
        let u := zsort (filter (fun i => zmem i bx) (nodup Z.eq_dec ax)) in
        let pos1 := map (fun i => zindex i ax) u in
        let labels := seq 0 (Nat.min letters (length u)) in
        if negb (forallb (fun p => p <? length labels) pos1) then Raise
        else
          (* [np.array([])] is a float array and cannot be used as an index *)
          if length bx =? 0 then Raise
          else if negb (length labels =? length bx) then Raise
          else
            rbind (norm_axes (length pos1) bx) (fun bx' =>
              let labels_2 := fold_left (fun acc jl => put_label (fst jl) (snd jl) acc) (combine bx' labels)
                                (repeat None (length pos1)) in
              rbind (all_some labels_2) (fun l2 => einsum_inner pos1 l2 a b))
    else np_tensordot_general a b ax bx.
End Tensordot.

(** ** numpy/decompositions.py *)
Section Decompositions.
  Context {R : cjr}.

  (** [np.reshape(tensor, [prod(left_dims), prod(right_dims)])]: 32-35, 87-89, 111-113 *)
  Definition as_matrix (t : tensor R) (pivot : nat) : tensor R :=
    reshape t [nprod (firstn pivot (shape t)); nprod (skipn pivot (shape t))].

  (** 21-74 [svd].  [svdf] is [np.linalg.svd(., full_matrices=False)]; [nkeep] is
      [num_sing_vals_keep] as a function of the singular values (modelled in SvdTrunc.v). *)
  Definition svd (svdf : tensor R -> tensor R * list R * tensor R) (nkeep : list R -> nat)
      (t : tensor R) (pivot : nat) : tensor R * list R * tensor R * list R :=
    let '(u, s, vh) := svdf (as_matrix t pivot) in
    let k := nkeep s in
    let s_rest := skipn k s in
    let s' := firstn k s in
    let dim_s := length s' in
    let u' := Tensor [nth 0 (shape u) 0; dim_s] (elt u) in
    let vh' := Tensor [dim_s; nth 1 (shape vh) 0] (elt vh) in
    (reshape u' (firstn pivot (shape t) ++ [dim_s]), s', reshape vh' (dim_s :: skipn pivot (shape t)), s_rest).

  (** columns of [q] and rows of [r] multiplied by phases: 92-94, 116-118.  [conj_phases] is true
      for numpy and jax; tensorflow/decompositions.py:170-172, 220-222 and
      pytorch/decompositions.py do not conjugate. *)
  Definition scale_cols (q : tensor R) (ph : nat -> R) : tensor R :=
    Tensor (shape q) (fun ix => elt q ix *! ph (nth 1 ix 0)).
  Definition scale_rows (ph : nat -> R) (r : tensor R) : tensor R :=
    Tensor (shape r) (fun ix => ph (nth 0 ix 0) *! elt r ix).
  Definition fix_phases (conj_phases : bool) (sign : R -> R) (q r : tensor R) : tensor R * tensor R :=
    let ph j := sign (elt r [j; j]) in
    (scale_cols q ph, scale_rows (fun j => if conj_phases then cj (ph j) else ph j) r).
  (** 77-98 [qr] *)
  Definition qr (conj_phases : bool) (sign : R -> R) (qrf : tensor R -> tensor R * tensor R)
      (t : tensor R) (pivot : nat) (non_negative_diagonal : bool) : tensor R * tensor R :=
    let '(q0, r0) := qrf (as_matrix t pivot) in
    let '(q, r) := if non_negative_diagonal then fix_phases conj_phases sign q0 r0 else (q0, r0) in
    let center := nth 1 (shape q) 0 in
    (reshape q (firstn pivot (shape t) ++ [center]), reshape r (center :: skipn pivot (shape t))).
  (** [np.conj(np.transpose(m))] *)
  Definition adjoint (m : tensor R) : tensor R :=
    Tensor (rev (shape m)) (fun ix => cj (elt m (rev ix))).
  (** 101-124 [rq]: returns (r, q) *)
  Definition rq (conj_phases : bool) (sign : R -> R) (qrf : tensor R -> tensor R * tensor R)
      (t : tensor R) (pivot : nat) (non_negative_diagonal : bool) : tensor R * tensor R :=
    let '(q0, r0) := qrf (adjoint (as_matrix t pivot)) in
    let '(q1, r1) := if non_negative_diagonal then fix_phases conj_phases sign q0 r0 else (q0, r0) in
    let r := adjoint r1 in
    let q := adjoint q1 in
    let center := nth 1 (shape r) 0 in
    (reshape r (firstn pivot (shape t) ++ [center]), reshape q (center :: skipn pivot (shape t))).

  (** abstract_backend.py:938-962 [pivot] for a nonnegative axis *)
  Definition pivot (t : tensor R) (axis : nat) : res (tensor R) :=
    if rank t <? axis then Raise else Ok (as_matrix t axis).
End Decompositions.
