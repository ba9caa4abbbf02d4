(** * SymLinalg: linear algebra of block-sparse tensors, tensornetwork/block_sparse/linalg.py,
    and the routines of the symmetric backend built on it
    (tensornetwork/backends/symmetric/decompositions.py:217-248, symmetric_backend.py:636-649).

    numpy's factorisations of one block are parameters; a block is given row major with its numbers of
    rows and columns.  [emp] is the value of uninitialised memory.  A [ChargeArray] has the same fields as a
    block-sparse tensor (blocksparsetensor.py:46-85), but stores all entries.  Simplified: axes are
    nonnegative; no dtypes; assigning an array of another length raises (numpy would broadcast length 1). *)
From Coq Require Import List ZArith.
From Verif Require Import Prelude Res Algebra Tensor Charge BlockSparse SymSvd.
Import ListNotations.
Set Implicit Arguments.
Unset Strict Implicit.

(** [np.ravel(a)], [np.ravel(a.T)] *)
Definition ravel_rows {A} (a : mat A) : list A := flat_map (fun i => map (fun j => m_at a i j) (seq 0 (m_cols a))) (seq 0 (m_rows a)).
Definition ravel_cols {A} (a : mat A) : list A := flat_map (fun j => map (fun i => m_at a i j) (seq 0 (m_rows a))) (seq 0 (m_cols a)).
(** [np.concatenate([np.full(ks[n], n) ...])] (linalg.py:95-98, 343-351, 370-377, 423-430) *)
Definition block_labels (ks : list nat) : list nat := concat (map (fun n => repeat n (nth n ks 0)) (seq 0 (length ks))).
(** [np.argsort] of distinct numbers *)
Definition argsort_nat (l : list nat) : list nat := sort (fun i j => nth i l 0 <=? nth j l 0) (seq 0 (length l)).

Inductive qr_mode := Reduced | Complete | OnlyR.

Section Linalg.
  Context {G : chg} {K : csr}.
  Variables lim blim junk : nat.
  Variable emp : K.
  Notation bst := (bst G K).

  (** the blocks of a matrix: rows, columns and data (linalg.py:329-337, 408-416, 467-475, 524-530) *)
  Definition mat_blocks (m : bst) : res (blocks (G := G)) :=
    match bord m with
    | [o0; _] => tr_blocks lim blim junk (bcs m) (bfs m) (length o0) (flat_order m)
    | _ => Raise
    end.
  Definition block_list (m : bst) (B : blocks (G := G)) : list (nat * nat * list K) :=
    map (fun ms => (snd ms, gather r0 (bdata m) (fst ms))) (combine (bmaps B) (bdims B)).

  (** linalg.py:28-32 [norm]: [root] of the sum of the squared absolute values *)
  Definition lin_norm (sq root : K -> K) (t : bst) : K := root (lsum (bdata t) sq).
  (** linalg.py:544-554 [sqrt], 696-704 [abs], [sign]: [f] is applied to all stored entries *)
  Definition lin_map (f : K -> K) (t : bst) : bst := BST (map f (bdata t)) (bcs t) (bfs t) (bord t).

  (** blocksparse_utils.py:80-119 [compute_sparse_lookup]: positions ([lookup]), unique charges and their labels *)
  Definition sparse_lookup (cs : list (bc G)) (fs : list bool) (targets : list G) : res (list nat * list G * list nat) :=
    rbind (fuse_charges cs fs) (fun c =>
      let u := uniq (rep c) in
      let labs := locs_in u (isect u targets) in
      let tmp := map (fun k => if existsb (Nat.eqb k) labs then Some k else None) (seq 0 (length u)) in
      Ok (somes (map (fun i => nth i tmp None) (inverse (rep c))), u, sort Nat.leb labs)).
  (** data[positions] = values for every block *)
  Definition fill (z : K) (n : nat) (maps : list (list nat)) (vals : list (list K)) : res (list K) :=
    fold_left (fun acc mv => rbind acc (fun data =>
      if length (fst mv) =? length (snd mv) then Ok (scatter data (fst mv) (snd mv)) else Raise)) (combine maps vals) (Ok (repeat z n)).
  (** linalg.py:35-86 [diag] of a [ChargeArray] (which is not a [BlockSparseTensor]); 69-70 [np.zeros] *)
  Definition diag_matrix (d : list K) : list K :=
    flat_map (fun i => map (fun j => if i =? j then nth i d r0 else r0) (seq 0 (length d))) (seq 0 (length d)).
  Definition lin_diagflat (v : bst) : res bst :=
    match bord v with
    | [o0] =>
        let n := length (bcs v) in
        rbind (tr_blocks lim blim junk (bcs v ++ bcs v) (bfs v ++ map negb (bfs v)) (length o0) (o0 ++ map (fun i => i + n) o0)) (fun B =>
        rbind (sparse_lookup (bcs v) (bfs v) (rep (bqs B))) (fun l =>
        let '(lookup, u, labs) := l in
        rbind (fill r0 (list_sum (map (fun d => fst d * snd d) (bdims B))) (bmaps B)
          (map (fun q => let label := nth (index_of qdec q u) labs 0 in
                         diag_matrix (gather r0 (bdata v) (flatnonzero (map (Nat.eqb label) lookup)))) (rep (bqs B)))) (fun data =>
        match bcs v with
        | c :: _ => Ok (BST data [c; c] (bfs v ++ map negb (bfs v)) [o0; map (fun i => i + n) o0])
        | [] => Raise
        end)))
    | _ => Raise
    end.
  (** linalg.py:51-53, 88-113 [diag] of a block-sparse tensor with at most two legs *)
  Definition lin_diagonal (m : bst) : res bst :=
    match bord m with
    | o0 :: r =>
        if 1 <? length r then Raise
        else
          rbind (tr_blocks lim blim junk (bcs m) (bfs m) (length o0) (flat_order m)) (fun B =>
          let ks := map (fun d => Nat.min (fst d) (snd d)) (bdims B) in
          rbind (bgetitem (bqs B) (block_labels ks)) (fun q =>
          Ok (BST (concat (map (fun b => map (fun i => nth (i * snd (fst b) + i) (snd b) r0) (seq 0 (Nat.min (fst (fst b)) (snd (fst b))))) (block_list m B)))
                [q] [false] [[0]])))
    | [] => Raise
    end.

  (** the tensor with the new bond as first leg (linalg.py:354-368, 378-392, 436-450) *)
  Definition bond_first (q : bc G) (f : bool) (data : list K) (m : bst) (o : list nat) : bst :=
    BST data (q :: gather (Raw []) (bcs m) o) (f :: gather false (bfs m) o) [[0]; seq 1 (length o)].
  (** linalg.py:300-393 [qr]; the modes 'raw' and unknown ones raise (320-323); [np_qr mode] returns q (not used
      in mode 'r') and r *)
  Section Qr.
    Variable np_qr : qr_mode -> nat -> nat -> list K -> mat K * mat K.
    Definition lin_qr (m : bst) (mode : qr_mode) : res (option bst * bst) :=
      match bord m with
      | [o0; o1] =>
          rbind (mat_blocks m) (fun B =>
          let outs := map (fun b => np_qr mode (fst (fst b)) (snd (fst b)) (snd b)) (block_list m B) in
          let rs := map snd outs in
          rbind (bgetitem (bqs B) (block_labels (map (@m_rows K) rs))) (fun qr =>
          let R := bond_first qr false (concat (map ravel_rows rs)) m o1 in
          match mode with
          | OnlyR => Ok (None, R)
          | _ =>
              let us := map fst outs in
              rbind (bgetitem (bqs B) (block_labels (map (@m_cols K) us))) (fun qq =>
              rbind (btranspose (bond_first qq true (concat (map ravel_cols us)) m o0) [1; 0]) (fun Q => Ok (Some Q, R)))
          end))
      | _ => Raise
      end.
    (** decompositions.py:217-230 [qr] of a tensor *)
    Definition sym_qr (t : bst) (pivot : nat) : res (bst * bst) :=
      let left := firstn pivot (bshape t) in
      let right := skipn pivot (bshape t) in
      rbind (breshape t [nprod left; nprod right]) (fun m =>
      rbind (lin_qr m Reduced) (fun qr =>
      match fst qr with
      | Some q =>
          let d := nth 1 (bshape q) 0 in
          rbind (breshape q (left ++ [d])) (fun q' => rbind (breshape (snd qr) (d :: right)) (fun r' => Ok (q', r')))
      | None => Raise
      end)).
    (** decompositions.py:233-248 [rq] of a tensor *)
    Definition sym_rq (conj : K -> K) (t : bst) (pivot : nat) : res (bst * bst) :=
      let left := firstn pivot (bshape t) in
      let right := skipn pivot (bshape t) in
      rbind (breshape t [nprod left; nprod right]) (fun m =>
      rbind (btranspose m [1; 0]) (fun mt =>
      rbind (lin_qr (bconj conj mt) Reduced) (fun qr =>
      match fst qr with
      | Some q =>
          rbind (btranspose (snd qr) [1; 0]) (fun rt => rbind (btranspose q [1; 0]) (fun qt =>
          let r := bconj conj rt in
          let q := bconj conj qt in
          let d := nth 1 (bshape r) 0 in
          rbind (breshape r (left ++ [d])) (fun r' => rbind (breshape q (d :: right)) (fun q' => Ok (r', q')))))
      | None => Raise
      end))).
  End Qr.

  (** linalg.py:395-452 [eigh], 454-513 [eig]: [np_eig] returns the eigenvalues and the matrix of the eigenvectors of
      a block, or raises *)
  Definition lin_eig (np_eig : nat -> nat -> list K -> res (list K * mat K)) (m : bst) : res (bst * bst) :=
    match bord m with
    | [o0; _] =>
        rbind (mat_blocks m) (fun B =>
        rbind (mapr (fun b => np_eig (fst (fst b)) (snd (fst b)) (snd b)) (block_list m B)) (fun outs =>
        let es := map fst outs in
        rbind (bgetitem (bqs B) (block_labels (map (@length K) es))) (fun q =>
        rbind (btranspose (bond_first q true (concat (map (fun o => ravel_cols (snd o)) outs)) m o0) [1; 0]) (fun V =>
        Ok (BST (concat es) [q] [false] [[0]], V)))))
    | _ => Raise
    end.

  (** linalg.py:515-542 [inv], 660-694 [pinv]: [np_inv] is [np.linalg.inv] or [np.linalg.pinv] of a block *)
  Definition lin_inv (np_inv : nat -> nat -> list K -> res (mat K)) (m : bst) : res bst :=
    rbind (mat_blocks m) (fun B =>
    rbind (mapr (fun b => np_inv (fst (fst b)) (snd (fst b)) (snd b)) (block_list m B)) (fun outs =>
    rbind (fill emp (list_sum (map (fun d => fst d * snd d) (bdims B))) (bmaps B) (map ravel_cols outs)) (fun data =>
    btranspose (BST data (bcs m) (map negb (bfs m)) (bord m)) [1; 0]))).

  (** linalg.py:557-592 [eye] *)
  Definition np_eye (r c : nat) : list K := flat_map (fun i => map (fun j => if i =? j then r1 else r0) (seq 0 c)) (seq 0 r).
  Definition flip_index (i : index (G := G)) : index (G := G) := (fst i, map negb (snd i)).
  Definition lin_eye (col : index (G := G)) (row : option (index (G := G))) : res bst :=
    let row := match row with Some r => r | None => flip_index col end in
    let cs := fst col ++ fst row in
    let fs := snd col ++ snd row in
    rbind (diag_blocks lim blim cs fs (length (fst col))) (fun B =>
    rbind (fill emp (list_sum (map (fun d => fst d * snd d) (bdims B))) (bmaps B) (map (fun d => np_eye (fst d) (snd d)) (bdims B))) (fun data =>
    Ok (BST data cs fs [seq 0 (length (fst col)); seq (length (fst col)) (length (fst row))]))).

  (** linalg.py:595-658 [trace] over two axes (609: by default the last two); the last step [out.item()] is left out *)
  Definition shift_axis (i j x : nat) : nat := if Nat.max i j <? x then x - 2 else if Nat.min i j <? x then x - 1 else x.
  Fixpoint trace_loop (fuel : nat) (out : bst) (a0 a1 : list nat) : res bst :=
    match a0 with
    | [] => Ok out
    | i :: a0' =>
        match a1, fuel with
        | j :: a1', S k =>
            match nth i (bord out) [] with
            | o :: _ =>
                rbind (lin_eye ([nth o (bcs out) (Raw [])], [negb (nth o (bfs out) false)]) None) (fun id =>
                rbind (btensordot lim blim junk out id [i; j] [0; 1]) (fun out' =>
                trace_loop k out' (map (shift_axis i j) a0') (map (shift_axis i j) a1')))
            | [] => Raise
            end
        | [], _ => Raise
        | _, 0 => Fuel
        end
    end.
  Definition leg_axes (o flat : list nat) : list nat :=
    let labels := map (fun x => nindex x flat) (filter (fun x => existsb (Nat.eqb x) flat) (nuniq o)) in
    gather 0 labels (argsort_nat o).
  Definition lin_trace (t : bst) (x y : nat) : res bst :=
    if ndim t <? 2 then Raise
    else if (ndim t <=? x) || (ndim t <=? y) then Raise
    else
      let o0 := nth x (bord t) [] in
      let o1 := nth y (bord t) [] in
      if negb (leqb Bool.bool_dec (gather false (bfs t) o0) (map negb (gather false (bfs t) o1))) then Raise
      else if negb (index_eq (flip_index (gather (Raw []) (bcs t) o0, gather false (bfs t) o0)) (gather (Raw []) (bcs t) o1, gather false (bfs t) o1)) then Raise
      else
        rbind (breshape t (gather 0 (edims t) (flat_order t))) (fun out =>
        let flat := concat (bord out) in
        trace_loop (length o0) out (leg_axes o0 flat) (leg_axes o1 flat)).
  (** linalg.py:607-609 *)
  Definition lin_trace_last (t : bst) : res bst := lin_trace t (ndim t - 2) (ndim t - 1).

  (** symmetric_backend.py:636-642 [broadcast_right_multiplication], 644-649 [broadcast_left_multiplication] *)
  Definition broadcast_right (t v : bst) : res bst :=
    if ndim v =? 1 then rbind (lin_diagflat v) (fun d => btensordot lim blim junk t d [ndim t - 1] [0]) else Raise.
  Definition broadcast_left (v t : bst) : res bst :=
    if ndim v =? 1 then rbind (lin_diagflat v) (fun d => btensordot lim blim junk d t [1] [0]) else Raise.
End Linalg.
