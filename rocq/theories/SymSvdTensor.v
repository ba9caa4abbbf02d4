(** * SymSvdTensor: the symmetric [svd] of a block-sparse tensor,
    tensornetwork/backends/symmetric/decompositions.py:27-216.

    [np_svd rows cols data] is what [np.linalg.svd(.., full_matrices=False)] returns for a block given
    row major: U, the singular values, V^H. *)
From Coq Require Import Reals List ZArith.
From Verif Require Import Prelude Res Algebra Tensor Charge BlockSparse SymSvd.
Import ListNotations.
Set Implicit Arguments.
Unset Strict Implicit.

Section SymSvd.
  Context {G : chg} {K : csr}.
  Variables lim blim junk : nat.
  Variable np_svd : nat -> nat -> list K -> mat K * list R * mat K.

  (** a [ChargeArray] with one charge and flow False (182, 185-186): values and charges *)
  Definition charge_array := (list R * bc G)%type.

  (** 54-61: the decompositions of the blocks *)
  Definition block_svds (m : bst G K) (B : blocks (G := G)) : list (mat K * list R * mat K) :=
    map (fun ms => np_svd (fst (snd ms)) (snd (snd ms)) (gather r0 (bdata m) (fst ms))) (combine (bmaps B) (bdims B)).
  (** 44-213 for the matrix of 42; the labels of U, S and V (138-151) are computed by the same expression *)
  Definition sym_svd_matrix (m : bst G K) (maxsv : option nat) (err : option R) (relative : bool)
    : res (bst G K * charge_array * bst G K * charge_array) :=
    match bord m with
    | [o0; o1] =>
        rbind (tr_blocks lim blim junk (bcs m) (bfs m) (length o0) (flat_order m)) (fun B =>
        let outs := block_svds m B in
        rbind (sym_truncate (map (fun o => snd (fst o)) outs) maxsv err relative) (fun nd =>
        let new := fst nd in
        let disc := snd nd in
        rbind (bgetitem (bqs B) (bond_labels new)) (fun q =>
        rbind (bgetitem (bqs B) (bond_labels disc)) (fun qd =>
        rbind (btranspose (BST (u_data (map (fun o => fst (fst o)) outs) new)
                 (q :: gather (Raw []) (bcs m) o0) (true :: gather false (bfs m) o0) [[0]; seq 1 (length o0)]) [1; 0]) (fun U =>
        let V := BST (v_data (map (fun o => snd o) outs) new)
                   (q :: gather (Raw []) (bcs m) o1) (false :: gather false (bfs m) o1) [[0]; seq 1 (length o1)] in
        Ok (U, (concat new, q), V, (concat disc, qd)))))))
    | _ => Raise
    end.
  (** 39-42 and 214-216 *)
  Definition sym_svd (t : bst G K) (pivot : nat) (maxsv : option nat) (err : option R) (relative : bool)
    : res (bst G K * charge_array * bst G K * charge_array) :=
    let left := firstn pivot (bshape t) in
    let right := skipn pivot (bshape t) in
    rbind (breshape t [nprod left; nprod right]) (fun m =>
    rbind (sym_svd_matrix m maxsv err relative) (fun r =>
    let '(U, SV, V, Sd) := r in
    rbind (breshape U (left ++ [bdim (snd SV)])) (fun U' =>
    rbind (breshape V (bdim (snd SV) :: right)) (fun V' =>
    Ok (U', SV, V', Sd))))).
End SymSvd.
