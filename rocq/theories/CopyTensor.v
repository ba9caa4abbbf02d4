(** * CopyTensor: copy tensors, contract_copy_node and the bucket contractor
    (network_components.py:737-908, 1888-1920, contractors/bucket_contractor.py:21-57).

    A CopyNode is a node of the heap whose tensor is [copy_tensor rank dimension]; the lazily built array is this
    tensor.  The dictionary of partners is an association list in order of insertion, a set of axes is a list of
    which only membership is used. *)
From Verif Require Import Prelude Algebra Tensor Einsum Graph.
Set Implicit Arguments.
Unset Strict Implicit.

Section CopyTensor.
  Context {R : csr}.
  (** the number of subscripts the backend's einsum accepts: 52 letters for numpy (of the 62 of 873-874) *)
  Variable letters : nat.
  Notation M := (@M R).
  Notation "x <- m ;; k" := (bind m (fun x => k)) (at level 61, m at next level, right associativity).
  Notation "m ;;; k" := (bind m (fun _ => k)) (at level 61, right associativity).

  (** 841-848 [make_copy_tensor]: zeros, then ones at the index tuples (i, .., i) for i in range(dimension); with
      rank 0 the assignment is to the one entry, whatever the dimension *)
  Definition copy_tensor (rank dimension : nat) : tensor R :=
    Tensor (repeat dimension rank) (fun ix =>
      if existsb (fun i => forallb (Nat.eqb i) ix) (if rank =? 0 then [0] else seq 0 dimension) then r1 else r0).
  (** 739-773 [CopyNode.__init__] *)
  Definition new_copy_node (rank dimension : nat) (names : option (list nat)) : M nid :=
    new_node (copy_tensor rank dimension) names.

  (** 868-870 *)
  Fixpoint add_partner (p : nid) (a : nat) (d : list (nid * list nat)) : list (nid * list nat) :=
    match d with
    | [] => [(p, [a])]
    | (q, l) :: r => if q =? p then (q, a :: l) :: r else (q, l) :: add_partner p a r
    end.
  (** 860-871 [get_partners] with 850-858 *)
  Fixpoint partners_from (c : nid) (es : list eid) (d : list (nid * list nat)) : M (list (nid * list nat)) :=
    match es with
    | [] => ret d
    | e :: r =>
        ed <- get_edge e ;;
        match e_2 ed with
        | None => fail
        | Some (n2, a2) =>
            if (e_n1 ed =? c) && (n2 =? c) then partners_from c r d
            else if e_n1 ed =? c then partners_from c r (add_partner n2 a2 d)
            else guard (n2 =? c) ;;; partners_from c r (add_partner (e_n1 ed) (e_a1 ed) d)
        end
    end.
  Definition get_partners (c : nid) : M (list (nid * list nat)) :=
    nd <- get_node c ;; partners_from c (n_edges nd) [].

  (** 876-886 [_make_einsum_input_term] for the axes from [axis] on, [k] of them *)
  Fixpoint input_term (shared : list nat) (axis k next : nat) : list nat * nat :=
    match k with
    | 0 => ([], next)
    | S k' =>
        if mem axis shared then let f := input_term shared (S axis) k' next in (0 :: fst f, snd f)
        else let f := input_term shared (S axis) k' (S next) in (next :: fst f, snd f)
    end.
  (** 891-901 [_make_einsum_expression] with 888-889, and the tensors of 907 *)
  Fixpoint input_terms (ps : list (nid * list nat)) (next : nat) : M (list (factor nat R) * nat) :=
    match ps with
    | [] => ret ([], next)
    | (p, shared) :: r =>
        nd <- get_node p ;;
        let f := input_term shared 0 (rank (n_t nd)) next in
        g <- input_terms r (snd f) ;;
        ret ((n_t nd, fst f) :: fst g, snd g)
    end.

  (** [backend.einsum("term1,term2,..->out", *tensors)]: every label has one dimension (numpy would also stretch
      dimension 1, which does not arise for connected axes), labels not in [out] are summed *)
  Definition label_dim (net : list (factor nat R)) (l : nat) : nat :=
    match find (fun x => fst x =? l) (flat_map (fun f => combine (snd f) (shape (fst f))) net) with
    | Some x => snd x
    | None => 0
    end.
  Definition np_einsum (net : list (factor nat R)) (out : list nat) : option (tensor R) :=
    let dim := label_dim net in
    let ls := net_labels net in
    if negb (length net =? 0) &&
       forallb (fun l => l <? letters) ls &&
       forallb (fun f => if list_eq_dec Nat.eq_dec (shape (fst f)) (map dim (snd f)) then true else false) net &&
       nodupb out && forallb (fun l => mem l ls) out
    then Some (Tensor (map dim out) (fun ix =>
           esum Nat.eq_dec dim (nodup Nat.eq_dec (filter (fun l => negb (mem l out)) ls)) (netprod net) (fun l => nth (nindex l out) ix 0)))
    else None.
  (** 903-908 [compute_contracted_tensor] *)
  Definition compute_contracted_tensor (c : nid) : M (tensor R) :=
    ps <- get_partners c ;;
    f <- input_terms ps 1 ;;
    match np_einsum (fst f) (seq 1 (snd f - 1)) with Some t => ret t | None => fail end.

  (** 1909: the edge is attached to the copy node *)
  Definition touches (ed : edge) (c : nid) : bool :=
    (e_n1 ed =? c) || match e_2 ed with Some (n2, _) => n2 =? c | None => false end.
  (** 1908-1917: the edges of one partner *)
  Fixpoint copy_move (c p new : nid) (k : nat) (es : list eid) : M nat :=
    match es with
    | [] => ret k
    | e :: r =>
        ed <- get_edge e ;;
        if touches ed c then copy_move c p new k r
        else
          old <- (if e_n1 ed =? p then ret (e_a1 ed) else match e_2 ed with Some (_, a2) => ret a2 | None => fail end) ;;
          update_axis e (p, old) (new, k) ;;;
          add_edge new e k false ;;;
          copy_move c p new (S k) r
    end.
  (** 1907-1917 *)
  Fixpoint copy_moves (c new : nid) (k : nat) (ps : list nid) : M nat :=
    match ps with
    | [] => ret k
    | p :: r => nd <- get_node p ;; k' <- copy_move c p new k (n_edges nd) ;; copy_moves c new k' r
    end.
  (** 1888-1920 [contract_copy_node]; the partners keep their lists of edges *)
  Definition contract_copy_node (c : nid) : M nid :=
    t <- compute_contracted_tensor c ;;
    new <- new_node t None ;;
    ps <- get_partners c ;;
    k <- copy_moves c new 0 (map fst ps) ;;
    guard (rank t =? k) ;;;
    fresh_edges c ;;;
    ret new.

  (** bucket_contractor.py:51-57; the set of nodes as a list *)
  Fixpoint bucket (nodes : list nid) (order : list nid) : M (list nid) :=
    match order with
    | [] => ret nodes
    | c :: r =>
        ps <- get_partners c ;;
        new <- contract_copy_node c ;;
        bucket (new :: filter (fun n => negb (mem n (c :: map fst ps))) nodes) r
    end.
End CopyTensor.
