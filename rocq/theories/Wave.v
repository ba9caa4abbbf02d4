(** * Wave: dense wavefunctions and Trotter circuits (examples/wavefunctions)

    Model of wavefunctions.py and trotter.py on the heap of Graph.v.  Sites are counted from 0, so that the argument
    [n1] is a natural number (the documented range); callbacks and data types are left out. *)
From Coq Require Import List.
From Verif Require Import Prelude Algebra Tensor Graph GraphQuery.
Import ListNotations.
Set Implicit Arguments.
Unset Strict Implicit.

Section Wave.
  Context {R : cjr}.
  Notation M := (@M R).
  Notation "x <- m ;; k" := (bind m (fun x => k)) (at level 61, m at next level, right associativity).
  Notation "m ;;; k" := (bind m (fun _ => k)) (at level 61, right associativity).
  Variable iter : list nat -> list nat.

  (** wavefunctions.py:32 [inner]: reduce_sum(conj(psi1) * psi2) of two tensors of the same shape *)
  Definition inner (psi1 psi2 : tensor R) : R :=
    lsum (idxs (shape psi1)) (fun ys => rmul (cj (elt psi1 ys)) (elt psi2 ys)).

  (** wavefunctions.py:74-77: the loop of [_apply_op_network]; w is op_sites, ms the remaining values of m *)
  Fixpoint op_loop (op : nid) (w n1 : nat) (pbc : bool) (ms : list nat) (state : list eid) : M (list eid) :=
    match ms with
    | [] => ret state
    | m :: ms' =>
        let target := if pbc then (n1 + m) mod length state else n1 + m in
        receiving <- edge_of op (w + m) ;;
        match nth_error state target with
        | None => fail
        | Some site => connect receiving site ;;; output <- edge_of op m ;; op_loop op w n1 pbc ms' (replace_nth target output state)
        end
    end.
  (** wavefunctions.py:70-78 [_apply_op_network] *)
  Definition apply_op_network (state : list eid) (op : tensor R) (n1 : nat) (pbc : bool) : M (list eid * nid) :=
    n_op <- new_node op None ;;
    state' <- op_loop n_op (rank op / 2) n1 pbc (seq 0 (rank op / 2)) state ;;
    ret (state', n_op).

  (** wavefunctions.py:35-67 [apply_op] *)
  Definition apply_op (psi op : tensor R) (n1 : nat) (pbc : bool) : M (tensor R) :=
    n_psi <- new_node psi None ;;
    state <- node_edges n_psi ;;
    r <- apply_op_network state op n1 pbc ;;
    n_res <- contract_between iter (snd r) n_psi false (fst r) None ;;
    d <- get_node n_res ;;
    ret (n_t d).

  (** wavefunctions.py:113-114: for i: connect(site_edges[i], n_psi_conj[i]) *)
  Fixpoint close_sites (n : nid) (i : nat) (state : list eid) : M unit :=
    match state with
    | [] => ret tt
    | e :: es => f <- edge_of n i ;; connect e f ;;; close_sites n (S i) es
    end.
  (** wavefunctions.py:81-118 [expval]; [@] is contract_between (network_components.py:384-391) *)
  Definition expval (psi op : tensor R) (n1 : nat) (pbc : bool) : M (tensor R) :=
    n_psi <- new_node psi None ;;
    state <- node_edges n_psi ;;
    r <- apply_op_network state op n1 pbc ;;
    n_op_psi <- contract_between iter (snd r) n_psi false [] None ;;
    n_conj <- new_node (Tensor (shape psi) (fun ys => cj (elt psi ys))) None ;;
    close_sites n_conj 0 (fst r) ;;;
    n_res <- contract_between iter n_conj n_op_psi false [] None ;;
    d <- get_node n_res ;;
    ret (n_t d).

  (** wavefunctions.py:272-292: the loop over the sites of one layer; [skip] counts the sites still covered by a gate.  The
      value -1 that [skip] gets from a gate of rank below 2 is 0 here: the code only asks whether it is positive. *)
  Fixpoint layer_loop (gates : list (option (tensor R))) (sites : list nat) (skip : nat) (state : list eid) (nodes : list nid) : M (list eid * list nid) :=
    match sites with
    | [] => ret (state, nodes)
    | n :: sites' =>
        let gate := nth n gates None in
        if 0 <? skip then
          match gate with
          | Some _ => fail
          | None => layer_loop gates sites' (skip - 1) state nodes
          end
        else
          match gate with
          | None => layer_loop gates sites' skip state nodes
          | Some g =>
              r <- apply_op_network state g n false ;;
              layer_loop gates sites' (rank g / 2 - 1) (fst r) (nodes ++ [snd r])
          end
    end.
  (** wavefunctions.py:270-292: the loop over the layers *)
  Fixpoint layers_loop (num_sites : nat) (layers : list (list (option (tensor R)))) (state : list eid) (nodes : list nid) : M (list eid * list nid) :=
    match layers with
    | [] => ret (state, nodes)
    | gates :: layers' =>
        r <- layer_loop gates (seq 0 num_sites) 0 state nodes ;;
        layers_loop num_sites layers' (fst r) (snd r)
    end.
  (** wavefunctions.py:295: reduce(contract_between, nodes) *)
  Fixpoint reduce_between (acc : nid) (nodes : list nid) : M nid :=
    match nodes with
    | [] => ret acc
    | n :: nodes' => acc' <- contract_between iter acc n false [] None ;; reduce_between acc' nodes'
    end.
  (** wavefunctions.py:248-298 [apply_circuit] *)
  Definition apply_circuit (psi : tensor R) (layers : list (list (option (tensor R)))) : M (tensor R) :=
    n_psi <- new_node psi None ;;
    state <- node_edges n_psi ;;
    r <- layers_loop (rank psi) layers state [n_psi] ;;
    match snd r with
    | [] => fail
    | n :: nodes =>
        res <- reduce_between n nodes ;;
        reorder_edges res (fst r) ;;;
        d <- get_node res ;;
        ret (n_t d)
    end.

  (** trotter.py: [expm] is tf.linalg.expm, [iu] the complex number 1.j and [ng] negation *)
  Variables (expm : tensor R -> tensor R) (iu : R) (ng : R -> R).
  (** trotter.py:36-39: -1.0 * step_size or 1.j * step_size *)
  Definition trotter_factor (step_size : R) (euclidean : bool) : R := if euclidean then ng step_size else rmul iu step_size.
  (** trotter.py:46-50: the exponential of a term as a matrix, in the shape of the term *)
  Definition trotter_gate (c : R) (h : tensor R) : tensor R :=
    let h_r := reshape h [nth 0 (shape h) 0 * nth 1 (shape h) 0; nth 2 (shape h) 0 * nth 3 (shape h) 0] in
    reshape (expm (Tensor (shape h_r) (fun ix => rmul c (elt h_r ix)))) (shape h).
  (** trotter.py:52-58: the gates with an even (odd) number, None elsewhere *)
  Definition trotter_layer (odd : bool) (num_sites : nat) (eH : list (tensor R)) : list (option (tensor R)) :=
    map (fun n => if Bool.eqb (Nat.odd n) odd then nth_error eH n else None) (seq 0 num_sites).
  (** trotter.py:18-60 [trotter_prepare_gates]; H[0] of an empty list raises *)
  Definition trotter_prepare_gates (H : list (tensor R)) (step_size : R) (num_sites : nat) (euclidean : bool) : option (list (list (option (tensor R)))) :=
    if negb (S (length H) =? num_sites) then None
    else if length H =? 0 then None
    else if existsb (fun h => negb (rank h =? 4)) H then None
    else let eH := map (trotter_gate (trotter_factor step_size euclidean)) H in
         Some [trotter_layer false num_sites eH; trotter_layer true num_sites eH].

  (** [norm] is tf.norm of the entries and [dv] the division of numbers *)
  Variables (norm : list R -> R) (dv : R -> R -> R).
  (** wavefunctions.py:166: psi / norm(psi) *)
  Definition normalize (psi : tensor R) : tensor R :=
    Tensor (shape psi) (fun ys => dv (elt psi ys) (norm (to_list psi))).
  (** wavefunctions.py:151-171 [_evolve_trotter_gates] *)
  Fixpoint evolve_gates (psi : tensor R) (t : R) (layers : list (list (option (tensor R)))) (step_size : R) (num_steps : nat) (euclidean : bool) : M (tensor R * R) :=
    match num_steps with
    | 0 => ret (psi, t)
    | S k =>
        psi' <- apply_circuit psi layers ;;
        evolve_gates (if euclidean then normalize psi' else psi') (radd t step_size) layers step_size k euclidean
    end.
  (** wavefunctions.py:121-148 [evolve_trotter] *)
  Definition evolve_trotter (psi : tensor R) (H : list (tensor R)) (step_size : R) (num_steps : nat) (euclidean : bool) : M (tensor R * R) :=
    match trotter_prepare_gates H step_size (rank psi) euclidean with
    | None => fail
    | Some layers => evolve_gates psi r0 layers step_size num_steps euclidean
    end.
End Wave.
