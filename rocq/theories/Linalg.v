(** * Linalg: reshape and transpose of the numpy backend, pivot, and the functions of linalg/operations.py, tensor.py and
    linalg/node_linalg.py built on them *)
From Verif Require Import Prelude Algebra Tensor Res Backends Einsum Graph GraphQuery.
From Coq Require Import ZArith String.
Set Implicit Arguments.
Unset Strict Implicit.

(** astype(np.int32) *)
Definition wrap32 (z : Z) : Z := ((z + 2 ^ 31) mod 2 ^ 32 - 2 ^ 31)%Z.

Section Linalg.
  Context {R : csr}.
  Notation tensor := (tensor R).

  (** numpy's reshape: at most one unknown dimension, the size must agree. Entries other than -1 that are negative are
      an error in some versions and unknown dimensions in others: [any_neg] *)
  Definition unknown (any_neg : bool) (z : Z) : bool := (z =? -1)%Z || (any_neg && (z <? 0)%Z).
  Definition reshape_raw (any_neg : bool) (t : tensor) (s : list Z) : res tensor :=
    let known := filter (fun z => negb (unknown any_neg z)) s in
    let size := nprod (shape t) in
    let prod := nprod (map Z.to_nat known) in
    if existsb (fun z => (z <? 0)%Z) known then Raise
    else match List.length s - List.length known with
         | 0 => if prod =? size then Ok (reshape t (map Z.to_nat s)) else Raise
         | 1 => if (prod =? 0) || negb (size mod prod =? 0) then Raise
                else Ok (reshape t (map (fun z => if unknown any_neg z then size / prod else Z.to_nat z) s))
         | _ => Raise
         end.
  (** numpy_backend.py:57-58 *)
  Definition np_reshape (any_neg : bool) (t : tensor) (s : list Z) : res tensor :=
    reshape_raw any_neg t (map wrap32 s).
  (** numpy_backend.py:60-63 *)
  Definition np_transpose (t : tensor) (perm : option (list Z)) : res tensor :=
    match perm with
    | None => Ok (transpose t (rev (seq 0 (rank t))))
    | Some p => rbind (norm_axes (rank t) p) (fun p => if is_permb (rank t) p then Ok (transpose t p) else Raise)
    end.
  (** python's [l[:k]] and [l[k:]] cut at this position *)
  Definition cut_at (n : nat) (k : Z) : nat :=
    Nat.min n (Z.to_nat (if (k <? 0)%Z then Z.max 0 (k + Z.of_nat n) else k)).
  (** abstract_backend.py:938-962 *)
  Definition backend_pivot (any_neg : bool) (t : tensor) (axis : Z) : res tensor :=
    if (Z.of_nat (rank t) <? axis)%Z then Raise
    else let k := cut_at (rank t) axis in
         np_reshape any_neg t [Z.of_nat (nprod (firstn k (shape t))); Z.of_nat (nprod (skipn k (shape t)))].

  (** a Tensor object (tensor.py:25-36): the backend by name, and the array *)
  Definition Tens := (string * tensor)%type.
  (** tensor.py:106-125, operations.py:66-88, 262-273 *)
  Definition t_reshape (a : Tens) (s : list Z) : res Tens := rbind (np_reshape false (snd a) s) (fun x => Ok (fst a, x)).
  Definition t_squeeze (a : Tens) : res Tens := t_reshape a (map Z.of_nat (filter (fun d => negb (d =? 1)) (shape (snd a)))).
  Definition t_ravel (a : Tens) : res Tens := t_reshape a [Z.of_nat (nprod (shape (snd a)))].
  Definition t_transpose (a : Tens) (perm : option (list Z)) : res Tens := rbind (np_transpose (snd a) perm) (fun x => Ok (fst a, x)).
  Definition t_pivot (a : Tens) (axis : Z) : res Tens := rbind (backend_pivot false (snd a) axis) (fun x => Ok (fst a, x)).

  (** operations.py:23-37 *)
  Definition check_backends (l : list Tens) : bool :=
    match l with [] => true | a :: r => forallb (fun b => String.eqb (fst a) (fst b)) r end.
  (** operations.py:119-126 *)
  Definition t_outer (a b : Tens) : res Tens :=
    if check_backends [a; b] then Ok (fst a, outer (snd a) (snd b)) else Raise.
  (** operations.py:276-318; the list checked is [tensorA, tensorA] *)
  Definition kron (a b : Tens) : res Tens :=
    if negb (check_backends [a; a]) then Raise
    else
      let na := rank (snd a) in let nb := rank (snd b) in
      if negb (na mod 2 =? 0) then Raise
      else if negb (nb mod 2 =? 0) then Raise
      else
        let incoming := seq 0 (na / 2) ++ seq na (nb / 2) in
        let outgoing := seq (na / 2) (na - na / 2) ++ seq (na + nb / 2) (nb - nb / 2) in
        rbind (np_transpose (outer (snd a) (snd b)) (Some (map Z.of_nat (incoming ++ outgoing)))) (fun x => Ok (fst a, x)).
End Linalg.

Section Node.
  Context {R : csr}.
  Notation M := (@M R).
  Notation "x <- m ;; k" := (bind m (fun x => k)) (at level 61, m at next level, right associativity).
  Notation "m ;;; k" := (bind m (fun _ => k)) (at level 61, right associativity).
  (** node_linalg.kron (node_linalg.py:290-331) *)
  Fixpoint kron_edges (ns : list nid) : M (list eid * list eid) :=
    match ns with
    | [] => ret ([], [])
    | n :: r =>
        nd <- get_node n ;;
        let order := List.length (shape (n_t nd)) in
        guard (order mod 2 =? 0) ;;;
        io <- kron_edges r ;;
        ret (firstn (order / 2) (n_edges nd) ++ fst io, skipn (order / 2) (n_edges nd) ++ snd io)
    end.
  Definition node_kron (ns : list nid) : M nid :=
    io <- kron_edges ns ;; outer_product_final_nodes ns (fst io ++ snd io).
End Node.
