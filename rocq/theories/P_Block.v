(** * Properties C26 to C31 and C46: block-sparse tensors

    [lim] is the size above which degeneracies are computed differently (blocksparse_utils.py:29),
    [blim] the number of blocks above which row locations are computed differently, [junk] the
    contents of uninitialised memory: all statements hold for all their values. *)
From Coq Require Import ZArith Permutation.
From Verif Require Import Prelude Algebra Tensor Res Charge ChargeFacts ChargeInst BlockSparse BlockSpec BlockDegen BlockReduce BlockMaps BlockPart BstSpec BstConv BstTensordot BstOps BstMain BstExamples.
Set Implicit Arguments.
Unset Strict Implicit.

(** C26: [compute_num_nonzero] counts the index tuples of total charge zero *)
Theorem C26_num_nonzero (G : chg) lim (cs : list (bc G)) fs : 0 < lim ->
  (forall c, In c cs -> bc_ok c) -> length cs = length fs -> cs <> [] ->
  num_nonzero lim cs fs = Ok (length (allowed (legs cs fs))).
Proof. exact (fun H => @num_nonzero_spec G lim H cs fs). Qed.
Print Assumptions C26_num_nonzero.

(** tensors made by [zeros], [ones], [random], [randn] store as many numbers *)
Theorem C26_constructors (G : chg) (K : csr) lim (init : nat -> list K) (ixs : list (index (G := G))) :
  0 < lim -> (forall n, length (init n) = n) -> ixs <> [] -> (forall i, In i ixs -> wf_index i) ->
  exists t, binit lim init ixs = Ok t /\ wf_bst t /\ bdata t = init (length (allowed (index_legs ixs))) /\
    length (bdata t) = length (allowed (index_legs ixs)).
Proof. exact (@binit_spec G K lim init ixs). Qed.
Print Assumptions C26_constructors.

(** the data vector enumerates the allowed entries in row-major order, all other entries are zero *)
Theorem C26_row_major (G : chg) (K : csr) (t : bst G K) d :
  wf_bst t -> bord t = map (fun i => [i]) (seq 0 (length (bcs t))) -> bord t <> [] -> todense t = Ok d ->
  bdata t = map (elt d) (allowed (elegs t)) /\
  (forall I, valid I (shape d) -> ~ In I (allowed (elegs t)) -> elt d I = r0).
Proof. exact (@stored_rowmajor G K t d). Qed.
Print Assumptions C26_row_major.

Example C26_example :
  let cs := [ca; cb; cc] in let fs := [false; true; false] in
  let t := match binit 5 (K := Z_csr) numbers [ixA; ixB; ([cc], [false])] with Ok t => t | _ => BST [] [] [] [] end in
  forallb bc_okb cs = true /\ num_nonzero 2 cs fs = Ok 6 /\
  allowed (legs cs fs) = [[0; 0; 1]; [0; 1; 0]; [0; 2; 0]; [1; 0; 0]; [2; 1; 1]; [2; 2; 1]] /\
  wf_bstb t = true /\ bord t = map (fun i => [i]) (seq 0 (length (bcs t))) /\ bdata t = [1; 2; 3; 4; 5; 6]%Z /\
  show (todense t) = Ok ([3; 3; 2], [0; 1; 2; 0; 3; 0; 4; 0; 0; 0; 0; 0; 0; 0; 0; 5; 0; 6]%Z).
Proof. vm_compute. auto 10. Qed.

(** C27: from sparse to dense and back *)
Theorem C27_sparse_dense_sparse (G : chg) (K : csr) (t : bst G K) d :
  wf_bst t -> bord t <> [] -> todense t = Ok d ->
  exists t', fromdense (sparse_shape t) d = Ok t' /\ wf_bst t' /\
    (exists d', todense t' = Ok d' /\ teq d' d) /\
    (concat (bord t) = seq 0 (length (bcs t)) -> t' = t).
Proof. exact (@todense_fromdense G K t d). Qed.
Print Assumptions C27_sparse_dense_sparse.

(** from dense to sparse and back: lossless for arrays that vanish on the forbidden entries *)
Theorem C27_dense_sparse_dense (G : chg) (K : csr) (ixs : list (index (G := G))) (a : tensor K) t d :
  ixs <> [] -> (forall i, In i ixs -> wf_index i) -> shape a = map (fun i => idim i) ixs ->
  (forall I, valid I (shape a) -> charge_of (index_legs ixs) (split_index (index_dims ixs) I) <> qid -> elt a I = r0) ->
  fromdense ixs a = Ok t -> todense t = Ok d -> teq d a.
Proof. exact (@fromdense_todense G K ixs a t d). Qed.
Print Assumptions C27_dense_sparse_dense.

(** both conversions succeed; without the condition on [a], forbidden entries become zero *)
Theorem C27_total (G : chg) (K : csr) :
  (forall t : bst G K, wf_bst t -> bord t <> [] -> exists d, todense t = Ok d /\ teq d (dense_of t)) /\
  (forall (ixs : list (index (G := G))) (a : tensor K), ixs <> [] -> (forall i, In i ixs -> wf_index i) -> shape a = map (fun i => idim i) ixs ->
    exists t, fromdense ixs a = Ok t /\ wf_bst t /\ bord t <> []).
Proof.
  exact (conj (fun t W N => todense_total W N) (fun ixs a N H S => fromdense_total N H S)).
Qed.
Print Assumptions C27_total.

Theorem C27_forbidden_zero (G : chg) (K : csr) (t : bst G K) d I :
  wf_bst t -> bord t <> [] -> todense t = Ok d -> valid I (shape d) -> dense_charge t I <> qid -> elt d I = r0.
Proof. exact (@todense_forbidden G K t d I). Qed.
Print Assumptions C27_forbidden_zero.

Example C27_example :
  let d := match todense ex_t with Ok d => d | _ => of_list [] [] end in
  wf_bstb ex_t = true /\ bord ex_t = [[0]; [1]; [2; 3]] /\ forallb wf_indexb (sparse_shape ex_t) = true /\
  shape d = [3; 3; 6] /\ sparse_shape ex_t = [ixA; ixB; ixC] /\
  fromdense [ixA; ixB; ixC] d = Ok ex_t /\
  dense_charge ex_t [0; 0; 1] = (-2)%Z /\ elt d [0; 0; 1] = 0%Z /\ dense_charge ex_t [0; 0; 3] = 0%Z /\ elt d [0; 0; 3] = 2%Z.
Proof. vm_compute. auto 12. Qed.

(** C28: the diagonal blocks of every matricisation *)
Theorem C28_blocks (G : chg) lim blim junk (cs : list (bc G)) fs p order :
  0 < lim -> (forall c, In c cs -> bc_ok c) -> length cs = length fs -> cs <> [] ->
  p <= length cs -> is_perm (length cs) order ->
  exists B, tr_blocks lim blim junk cs fs p order = Ok B /\
    NoDup (rep (bqs B)) /\
    (forall q, sector (row_legs (legs cs fs) order p) q <> [] -> sector (col_legs (legs cs fs) order p) (qinv q) <> [] -> In q (rep (bqs B))) /\
    bmaps B = map (block (legs cs fs) order p) (rep (bqs B)) /\
    bdims B = map (block_shape (legs cs fs) order p) (rep (bqs B)) /\
    Permutation (concat (bmaps B)) (seq 0 (length (allowed (legs cs fs)))).
Proof. exact (@blocks_main G lim blim junk cs fs p order). Qed.
Print Assumptions C28_blocks.

Example C28_example :
  let cs := [ca; cb; cc; ca] in let fs := [false; true; false; true] in
  forallb bc_okb cs = true /\ is_permb 4 [2; 0; 3; 1] = true /\
  rbind (tr_blocks 5 3 77 cs fs 2 [2; 0; 3; 1]) (fun b => Ok (bmaps b, rep (bqs b), bdims b)) =
  Ok ([[11; 13]; [2; 4; 0; 12; 14; 10]; [6; 8; 9; 1; 3; 5]; [7]], [-1; 0; 1; 2]%Z, [(1, 2); (2, 3); (2, 3); (1, 1)]).
Proof. vm_compute. auto. Qed.

(** C29: lazy transposition and [contiguous] *)
Theorem C29_transpose (G : chg) (K : csr) lim blim junk (t : bst G K) p d :
  0 < lim -> wf_bst t -> bord t <> [] -> is_perm (ndim t) p -> todense t = Ok d ->
  exists s u ds du, btranspose t p = Ok s /\ contiguous lim blim junk s (flat_order s) = Ok u /\ todense s = Ok ds /\ todense u = Ok du /\
    wf_bst s /\ wf_bst u /\ bdata s = bdata t /\ flat_order u = seq 0 (length (bcs t)) /\
    teq ds (transpose d p) /\ teq du (transpose d p).
Proof. exact (@transpose_contiguous G K lim blim junk t p d). Qed.
Print Assumptions C29_transpose.

(** any target layout of the elementary legs leaves the tensor unchanged *)
Theorem C29_contiguous (G : chg) (K : csr) lim blim junk (t : bst G K) perm :
  0 < lim -> wf_bst t -> bord t <> [] -> is_perm (length (bcs t)) perm ->
  exists u d du, contiguous lim blim junk t perm = Ok u /\ wf_bst u /\ todense t = Ok d /\ todense u = Ok du /\ teq du d /\
    bcs u = gather (Raw []) (bcs t) perm /\ bfs u = gather false (bfs t) perm.
Proof. exact (@contiguous_dense G K lim blim junk t perm). Qed.
Print Assumptions C29_contiguous.

Example C29_example :
  let s := match btranspose ex_t [2; 0; 1] with Ok s => s | _ => ex_t end in
  wf_bstb ex_t = true /\ is_permb (ndim ex_t) [2; 0; 1] = true /\ bdata s = numbers 15 /\
  rbind (contiguous 5 3 77 s (flat_order s)) (fun u => Ok (bdata u, bord u)) =
    Ok ([3; 5; 7; 9; 10; 1; 12; 14; 2; 13; 15; 4; 6; 8; 11]%Z, [[0; 1]; [2]; [3]]) /\
  show (todense s) = Ok ([6; 3; 3], [0; 3; 5; 7; 0; 0; 0; 0; 0; 0; 0; 0; 0; 9; 10; 0; 0; 0; 1; 0; 0; 0; 0; 0; 0; 12; 14; 2; 0; 0; 0; 0; 0; 0; 13; 15;
    0; 4; 6; 8; 0; 0; 0; 0; 0; 0; 0; 0; 0; 0; 0; 11; 0; 0]%Z).
Proof. vm_compute. auto 10. Qed.

(** C30: contraction; a scalar result is returned as a tensor without legs holding one number *)
Theorem C30_tensordot (G : chg) (K : csr) lim blim junk (t1 t2 : bst G K) axes1 axes2 d1 d2 :
  0 < lim -> wf_bst t1 -> wf_bst t2 -> bord t1 <> [] -> bord t2 <> [] ->
  compatible t1 t2 axes1 axes2 -> todense t1 = Ok d1 -> todense t2 = Ok d2 ->
  exists t, btensordot lim blim junk t1 t2 axes1 axes2 = Ok t /\ wf_bst t /\
    (bord t <> [] -> exists d, todense t = Ok d /\ teq d (tensordot d1 d2 axes1 axes2)) /\
    (bord t = [] -> bdata t = [elt (tensordot d1 d2 axes1 axes2) []]).
Proof. exact (@btensordot_dense G K lim blim junk t1 t2 axes1 axes2 d1 d2). Qed.
Print Assumptions C30_tensordot.

(** whenever the call returns, whatever its own checks of charges and flows are *)
Theorem C30_sound (G : chg) (K : csr) lim blim junk (t1 t2 : bst G K) axes1 axes2 d1 d2 t :
  0 < lim -> wf_bst t1 -> wf_bst t2 -> bord t1 <> [] -> bord t2 <> [] ->
  NoDup axes1 -> NoDup axes2 -> gather 0 (bshape t1) axes1 = gather 0 (bshape t2) axes2 ->
  todense t1 = Ok d1 -> todense t2 = Ok d2 -> btensordot lim blim junk t1 t2 axes1 axes2 = Ok t ->
  wf_bst t /\ (bord t <> [] -> exists d, todense t = Ok d /\ teq d (tensordot d1 d2 axes1 axes2)) /\
  (bord t = [] -> bdata t = [elt (tensordot d1 d2 axes1 axes2) []]).
Proof. exact (@btensordot_sound G K lim blim junk t1 t2 axes1 axes2 d1 d2 t). Qed.
Print Assumptions C30_sound.

Example C30_example :
  wf_bstb ex_t = true /\ wf_bstb ex_u = true /\ bord ex_t = [[0]; [1]; [2; 3]] /\ bord ex_u = [[0]; [1; 2]; [3]] /\
  gather 0 (bshape ex_t) [2; 0] = [6; 3] /\ gather 0 (bshape ex_u) [1; 2] = [6; 3] /\
  con_legs ex_t [2; 0] = [2; 3; 0] /\ con_legs ex_u [1; 2] = [1; 2; 3] /\
  gather false (bfs ex_t) [2; 3; 0] = [false; true; false] /\ gather false (bfs ex_u) [1; 2; 3] = [true; false; true] /\
  show (rbind (btensordot 5 3 77 ex_t ex_u [2; 0] [1; 2]) todense) = Ok ([3; 3], [-1; 0; 0; 0; -381; -791; 0; -464; -964]%Z) /\
  rbind (btensordot 5 3 77 ex_t ex_u [2; 0; 1] [1; 2; 0]) (fun t => Ok (bdata t)) = Ok [-1346]%Z.
Proof. vm_compute. auto 15. Qed.

(** C31: reshaping keeps the data and the elementary legs, and commutes with [todense] *)
Theorem C31_faithful (G : chg) (K : csr) (t : bst G K) ns u d :
  wf_bst t -> bord t <> [] -> ns <> [] -> breshape t ns = Ok u -> todense t = Ok d ->
  wf_bst u /\ bdata u = bdata t /\ bcs u = bcs t /\ bfs u = bfs t /\ flat_order u = flat_order t /\
  exists d', todense u = Ok d' /\ teq d' (reshape d ns).
Proof. exact (@reshape_dense G K t ns u d). Qed.
Print Assumptions C31_faithful.

(** it succeeds exactly for products of groups of neighbouring elementary dimensions *)
Theorem C31_succeeds_iff (G : chg) (K : csr) (t : bst G K) ns :
  wf_bst t -> (forall d, In d (flat_dims t) -> 0 < d) -> ns <> [] ->
  ((exists u, breshape t ns = Ok u) <-> groupable ns (flat_dims t)).
Proof. exact (@reshape_succeeds G K t ns). Qed.
Print Assumptions C31_succeeds_iff.

Example C31_example :
  let s := match btranspose ex_t [2; 0; 1] with Ok s => s | _ => ex_t end in
  wf_bstb s = true /\ bshape s = [6; 3; 3] /\ flat_dims s = [2; 3; 3; 3] /\
  rbind (breshape s [2; 9; 3]) (fun u => Ok (bord u)) = Ok [[2]; [3; 0]; [1]] /\
  rbind (breshape s [18; 3]) (fun u => Ok (bord u)) = Ok [[2; 3; 0]; [1]] /\
  breshape s [9; 6] = Raise /\
  let one : bc Z_chg := Raw [0%Z] in
  let v := match binit 5 (K := Z_csr) numbers [([one; cc; one; one; ca; one], repeat false 6)] with Ok v => v | _ => s end in
  rbind (breshape v [1; 2; 1; 3]) (fun u => Ok (bord u)) = Ok [[0]; [1]; [2]; [3; 4; 5]] /\
  rbind (breshape v [2; 3]) (fun u => Ok (bord u)) = Ok [[0; 1]; [2; 3; 4; 5]].
Proof. vm_compute. auto 12. Qed.

(** C46: sums and differences for any two storage layouts; the operands may be brought into another
    layout, their values stay *)
Theorem C46_sums (G : chg) (K : csr) lim blim junk (op : K -> K -> K) (t u t' u' r : bst G K) dt du :
  0 < lim -> wf_bst t -> wf_bst u -> bord t <> [] -> bord u <> [] -> op r0 r0 = r0 ->
  todense t = Ok dt -> todense u = Ok du -> bzip lim blim junk op t u = Ok (t', u', r) ->
  wf_bst r /\ exists dt' du' dr, todense t' = Ok dt' /\ todense u' = Ok du' /\ todense r = Ok dr /\ teq dt' dt /\ teq du' du /\
    teq dr (Tensor (shape dt) (fun I => op (elt dt I) (elt du I))).
Proof. exact (@bzip_dense G K lim blim junk op t u t' u' r dt du). Qed.
Print Assumptions C46_sums.

(** tensors with the same legs can be added *)
Theorem C46_sums_succeed (G : chg) (K : csr) lim blim junk (op : K -> K -> K) (t u : bst G K) :
  0 < lim -> wf_bst t -> wf_bst u -> op r0 r0 = r0 -> sparse_shape t = sparse_shape u -> length (bcs t) = length (bcs u) ->
  exists x, bzip lim blim junk op t u = Ok x.
Proof. exact (@bzip_succeeds G K lim blim junk op t u). Qed.
Print Assumptions C46_sums_succeed.

(** operations on the stored numbers that fix zero, and conjugation *)
Theorem C46_scalars (G : chg) (K : csr) (f : K -> K) (t : bst G K) d :
  wf_bst t -> bord t <> [] -> f r0 = r0 -> todense t = Ok d ->
  exists d', todense (bmap f t) = Ok d' /\ teq d' (Tensor (shape d) (fun I => f (elt d I))).
Proof. exact (@bmap_dense G K f t d). Qed.
Print Assumptions C46_scalars.
Theorem C46_conj (G : chg) (K : csr) (f : K -> K) (t : bst G K) d :
  wf_bst t -> bord t <> [] -> f r0 = r0 -> todense t = Ok d ->
  exists d', todense (bconj f t) = Ok d' /\ teq d' (Tensor (shape d) (fun I => f (elt d I))).
Proof. exact (@bconj_dense G K f t d). Qed.
Print Assumptions C46_conj.

Example C46_example :
  let s := match btranspose ex_t [1; 2; 0] with Ok s => s | _ => ex_t end in
  let u := bconj (fun x => x) ex_u in
  wf_bstb s = true /\ wf_bstb u = true /\ sparse_shape s = sparse_shape u /\ flat_order s = [1; 2; 3; 0] /\ flat_order u = [0; 1; 2; 3] /\
  bdata s = numbers 15 /\
  rbind (bzip (K := Z_csr) 5 3 77 Z.add s u) (fun x => Ok (flat_order (fst (fst x)), bdata (fst (fst x)), bdata (snd x))) =
  Ok ([0; 1; 2; 3], [7; 1; 2; 8; 11; 3; 9; 12; 13; 4; 5; 10; 14; 15; 6]%Z, [12; 4; 3; 7; 8; -2; 2; 3; 2; -9; -10; -7; -5; -6; -17]%Z).
Proof. vm_compute. auto 10. Qed.
