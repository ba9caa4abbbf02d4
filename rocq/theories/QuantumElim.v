(** * QuantumElim: removing identities from the network of an operator, contracting it and reading off its tensor
    (tensornetwork/quantum/quantum.py). *)
From Verif Require Import Prelude Algebra Tensor Einsum Graph GraphQuery GraphCopy CopyTensor PathContract Quantum.
Set Implicit Arguments.
Unset Strict Implicit.

Section QuantumElim.
  Context {R : cjr}.
  Notation st := (@st R).
  Notation M := (@M R).
  (** the order in which a python set is traversed *)
  Variable iter : list nat -> list nat.
  Notation "x <- m ;; k" := (bind m (fun x => k)) (at level 61, m at next level, right associativity).
  Notation "m ;;; k" := (bind m (fun _ => k)) (at level 61, right associativity).

  (** the two dictionaries of 119-120, the latest entry first *)
  Definition dicts := (list (nid * nid) * list (eid * eid))%type.

  (** 138-141 *)
  Definition keep_node (n : nid) (d : dicts) : M dicts :=
    es <- get_all_dangling [n] ;; ret ((n, n) :: fst d, map (fun e => (e, e)) es ++ snd d).
  (** 122-137: an identity that is not alone *)
  Definition drop_node (n : nid) (e0 e1 : eid) (dim : nat) (d : dicts) : M dicts :=
    new <- remove_node n ;;
    match dget new 0, dget new 1 with
    | Some f0, Some f1 => connect f0 f1 ;;; ret d
    | Some f0, None => ret (fst d, (e1, f0) :: snd d)
    | None, Some f1 => ret (fst d, (e0, f1) :: snd d)
    | None, None =>
        N <- new_node (Tensor [] (fun _ => nsum dim (fun _ => @r1 R))) None ;;   (* np.array(d) *)
        ret ((n, N) :: fst d, snd d)
    end.
  (** 121-141, one turn of the loop; [cps] are the nodes whose class is CopyNode *)
  Definition elim_node (cps : list nid) (n : nid) (d : dicts) : M dicts :=
    nd <- get_node n ;;
    if mem n cps && Nat.eqb (rank (n_t nd)) 2 then
      e0 <- edge_of n 0 ;; e1 <- edge_of n 1 ;;
      d0 <- get_edge e0 ;; d1 <- get_edge e1 ;;
      if is_dangling d0 && is_dangling d1 then keep_node n d
      else drop_node n e0 e1 (nth 0 (shape (n_t nd)) 0) d
    else keep_node n d.
  (** 107-143 [eliminate_identities] *)
  Fixpoint eliminate (cps : list nid) (ns : list nid) (d : dicts) : M dicts :=
    match ns with
    | [] => ret d
    | n :: r => d' <- elim_node cps n d ;; eliminate cps r d'
    end.

  (** 445-451: the first half of [contract].  [cps_of] drops the reference nodes that are not in the dictionary.  A
      CopyNode remains one if it is its own replacement. *)
  Definition simplify (q : quop) : M (quop * list (eid * eid)) :=
    ns <- q_nodes iter q ;;
    d <- eliminate (q_cps q) (iter ns) ([], []) ;;
    in' <- mmap (look (snd d)) (q_in q) ;;
    out' <- mmap (look (snd d)) (q_out q) ;;
    ign' <- mmap (look (snd d)) (q_ign q) ;;
    let q' := Qu out' in' (cps_of (fst d) (q_ref q)) ign'
                (filter (fun n => match dget (fst d) n with Some m => Nat.eqb m n | None => false end) (q_cps q)) in
    check_network iter q' ;;; ret (q', snd d).

  (** 428-459 [contract] with a contractor of path_contractors.py: greedy, optimal, branch and custom are [base] with
      some algorithm.  A missing and an empty [final_edge_order] are both written []. *)
  Definition contract (alg : algorithm) (q : quop) (order : list eid) : M quop :=
    r <- simplify q ;;
    let q' := fst r in
    N <- (match order with
          | [] => ns <- q_nodes iter q' ;; base iter alg ns None true
          | _ => o <- mmap (look (snd r)) order ;; ns <- q_nodes iter q' ;; base iter alg ns (Some o) false
          end) ;;
    ret (Qu (q_out q') (q_in q') [N] (q_ign q') (filter (Nat.eqb N) (q_cps q'))).

  (** 461-492 [eval] *)
  Definition eval (alg : algorithm) (q : quop) (order : list eid) : M (tensor R) :=
    let o := match order with [] => iter (q_ign q) ++ q_out q ++ q_in q | _ => order end in
    q' <- contract alg q o ;;
    ns <- q_nodes iter q' ;;
    match ns with
    | [n] => nd <- get_node n ;; ret (n_t nd)
    | _ => fail
    end.
End QuantumElim.
