(** * Property C52: linear algebra of block-sparse tensors agrees with the dense one *)
From Coq Require Import Permutation List Lia ZArith.
From Verif Require Import Prelude Algebra Tensor TensorFacts Res Charge ChargeFacts ChargeInst BlockSparse BlockSpec BstSpec BlockFacts BlockPart BlockMaps BstFacts BstConv BstExamples BstOps BstTensordot SymSvd SymLinalg SymLinalgSpec SymLinalgGrade SymLinalgMat SymLinalgFact SymLinalgInv SymLinalgDiag SymLinalgTensor SymLinalgBroadcast SymLinalgRect.
Import ListNotations.
Set Implicit Arguments.
Unset Strict Implicit.

(** [norm] is the norm of the dense tensor: sq is the squared absolute value, root the square root. *)
Theorem C52_norm (G : chg) (K : csr) (sq root : K -> K) (t : bst G K) : wf_bst t -> sq r0 = r0 ->
  lin_norm sq root t = root (lsum (idxs (shape (dense_of t))) (fun I => sq (elt (dense_of t) I))).
Proof. intros W H. unfold lin_norm. rewrite (dense_sum W H). reflexivity. Qed.
Print Assumptions C52_norm.

(** [sqrt], [abs], [sign] act on all entries, because they keep zero. *)
Theorem C52_elementwise (G : chg) (K : csr) (f : K -> K) (t : bst G K) : wf_bst t -> f r0 = r0 ->
  wf_bst (lin_map f t) /\ teq (dense_of (lin_map f t)) (Tensor (shape (dense_of t)) (fun I => f (elt (dense_of t) I))).
Proof. exact (@bmap_spec G K f t). Qed.
Print Assumptions C52_elementwise.

(** [eye] of one index is the identity matrix, whatever was in the uninitialised memory. *)
Theorem C52_eye (G : chg) (K : csr) lim blim (emp : K) (col : index (G := G)) : 0 < lim -> wf_index col ->
  exists t, lin_eye lim blim emp col None = Ok t /\ wf_bst t /\ bcs t = fst col ++ fst col /\ bfs t = snd col ++ map negb (snd col) /\
    bord t = [seq 0 (length (fst col)); seq (length (fst col)) (length (fst col))] /\
    shape (dense_of t) = [idim col; idim col] /\ forall i j, i < idim col -> j < idim col -> m_of t i j = if i =? j then r1 else r0.
Proof.
  intros Hl W. destruct (@eye_square G K lim blim Hl emp col W) as (t & E & W1 & B1 & B2 & B3 & _ & _ & S & V). exists t. repeat (split; [assumption|]). exact V.
Qed.
Print Assumptions C52_eye.

(** [eye] of two indices: the entry (i, j) is 1 when the row i and the column j have matching charges and the same
    position among the rows and columns of that charge, 0 otherwise. *)
Theorem C52_eye_rectangular (G : chg) (K : csr) lim blim (emp : K) (col row : index (G := G)) : 0 < lim -> wf_index col -> wf_index row ->
  exists t, lin_eye lim blim emp col (Some row) = Ok t /\ wf_bst t /\ bcs t = fst col ++ fst row /\ bfs t = snd col ++ snd row /\
    let L := legs (fst col) (snd col) in let C := map flip (legs (fst row) (snd row)) in
    forall i j, i < nprod (ldims L) -> j < nprod (ldims C) ->
      let r := unravel (ldims L) i in let c := unravel (ldims C) j in
      m_of t i j = if qdec (charge_of L r) (charge_of C c) then
        (if index_of (list_eq_dec Nat.eq_dec) r (sector L (charge_of L r)) =? index_of (list_eq_dec Nat.eq_dec) c (sector C (charge_of C c)) then r1 else r0) else r0.
Proof.
  intros Hl W1 W2. destruct (@eye_graded G K lim blim Hl emp col row W1 W2) as (t & E & Wt & B1 & B2 & _ & _ & _ & GR).
  exists t. repeat (split; [assumption|]). exact GR.
Qed.
Print Assumptions C52_eye_rectangular.

(** [diag] of a vector on one leg is the diagonal matrix (R_SymLinalg.v: not for a vector on several legs). *)
Theorem C52_diagflat (G : chg) (K : csr) lim blim junk (c : bc G) f (data : list K) : 0 < lim -> bc_ok c -> length data = length (rep c) ->
  exists t, lin_diagflat lim blim junk (BST data [c] [f] [[0]]) = Ok t /\ wf_bst t /\ bcs t = [c; c] /\ bfs t = [f; negb f] /\ bord t = [[0]; [1]] /\
    shape (dense_of t) = [length data; length data] /\
    forall i j, i < length data -> j < length data -> m_of t i j = if i =? j then nth i data r0 else r0.
Proof. intros Hl. exact (@diagflat_diagonal G K lim blim junk Hl c f data). Qed.
Print Assumptions C52_diagflat.

(** [diag] of a matrix with matching row and column legs: all diagonal entries with their charges, in the order of the blocks. *)
Theorem C52_diagonal (G : chg) (K : csr) lim blim junk (m : bst G K) : 0 < lim -> wf_bst m -> ndim m = 2 -> axis_legs m 1 = map flip (axis_legs m 0) ->
  let n := nprod (ldims (axis_legs m 0)) in
  exists d q ps, lin_diagonal lim blim junk m = Ok d /\ bcs d = [q] /\ bfs d = [false] /\ bord d = [[0]] /\ bc_ok q /\
    Permutation ps (seq 0 n) /\ bdata d = map (fun i => m_of m i i) ps /\
    rep q = map (fun i => charge_of (axis_legs m 0) (unravel (ldims (axis_legs m 0)) i)) ps.
Proof. intros Hl. exact (@diagonal_entries G K lim blim junk Hl m). Qed.
Print Assumptions C52_diagonal.

(** [diag] of any matrix: the entries at the a-th row and a-th column of every block, each once, with the charge of the row. *)
Theorem C52_diagonal_rectangular (G : chg) (K : csr) lim blim junk (m : bst G K) : 0 < lim -> wf_bst m -> ndim m = 2 ->
  exists d q ps, lin_diagonal lim blim junk m = Ok d /\ bcs d = [q] /\ bfs d = [false] /\ bord d = [[0]] /\ bc_ok q /\
    NoDup ps /\ (forall i j, In (i, j) ps <-> block_diagonal m i j) /\ bdata d = map (fun p => m_of m (fst p) (snd p)) ps /\
    rep q = map (fun p => charge_of (axis_legs m 0) (unravel (ldims (axis_legs m 0)) (fst p))) ps.
Proof. intros Hl. exact (@diagonal_rect G K lim blim junk Hl m). Qed.
Print Assumptions C52_diagonal_rectangular.

(** Multiplying a tensor by a vector along its last or first axis scales the entries. *)
Theorem C52_broadcast_right (G : chg) (K : csr) lim blim junk (t : bst G K) (c : bc G) f (data : list K) os k : 0 < lim -> wf_bst t ->
  bc_ok c -> length data = length (rep c) -> bord t = os ++ [[k]] -> charge_equal (nth k (bcs t) (Raw [])) c = true -> nth k (bfs t) false = negb f ->
  exists u, broadcast_right lim blim junk t (BST data [c] [f] [[0]]) = Ok u /\ wf_bst u /\ shape (dense_of u) = shape (dense_of t) /\
    forall I j, valid (I ++ [j]) (shape (dense_of t)) -> elt (dense_of u) (I ++ [j]) = elt (dense_of t) (I ++ [j]) *! nth j data r0.
Proof. intros Hl W Hc Hd. exact (@broadcast_right_scales G K lim blim junk Hl t W c f data Hc Hd os k). Qed.
Print Assumptions C52_broadcast_right.
Theorem C52_broadcast_left (G : chg) (K : csr) lim blim junk (t : bst G K) (c : bc G) f (data : list K) os k : 0 < lim -> wf_bst t ->
  bc_ok c -> length data = length (rep c) -> bord t = [k] :: os -> charge_equal c (nth k (bcs t) (Raw [])) = true -> nth k (bfs t) false = f ->
  exists u, broadcast_left lim blim junk (BST data [c] [f] [[0]]) t = Ok u /\ wf_bst u /\ shape (dense_of u) = shape (dense_of t) /\
    forall i I, valid (i :: I) (shape (dense_of t)) -> elt (dense_of u) (i :: I) = nth i data r0 *! elt (dense_of t) (i :: I).
Proof. intros Hl W Hc Hd. exact (@broadcast_left_scales G K lim blim junk Hl t W c f data Hc Hd os k). Qed.
Print Assumptions C52_broadcast_left.

(** [qr] of a symmetric matrix.  When numpy decomposes the blocks, Q and R are symmetric, have the rows and columns of
    the matrix, can be contracted with each other, their product is the dense matrix and the columns of Q are
    orthonormal; the new bond has, for each charge with a block, as many states as numpy returns. *)
Theorem C52_qr (G : chg) (K : cjr) lim blim junk (m : bst G K) np_qr mode : 0 < lim -> wf_bst m -> ndim m = 2 -> mode <> OnlyR ->
  (forall q, has_block m q -> qr_ok (qr_size mode (b_rows m q) (b_cols m q)) (b_rows m q) (b_cols m q) (b_entries m q) (np_qr mode (b_rows m q) (b_cols m q) (b_entries m q))) ->
  let rows := nprod (ldims (axis_legs m 0)) in let cols := nprod (ldims (axis_legs m 1)) in
  exists Q R n, lin_qr lim blim junk np_qr m mode = Ok (Some Q, R) /\ wf_bst Q /\ wf_bst R /\
    shape (dense_of Q) = [rows; n] /\ shape (dense_of R) = [n; cols] /\
    axis_legs Q 0 = axis_legs m 0 /\ axis_legs R 1 = axis_legs m 1 /\ axis_legs Q 1 = map flip (axis_legs R 0) /\ compatible Q R [1] [0] /\
    (forall q, has_block m q -> b_rows R q = qr_size mode (b_rows m q) (b_cols m q)) /\ (forall q, ~ has_block m q -> b_rows R q = 0) /\
    (forall i j, i < rows -> j < cols -> nsum n (fun l => m_of Q i l *! m_of R l j) = m_of m i j) /\
    (forall a b, a < n -> b < n -> nsum rows (fun i => cj (m_of Q i a) *! m_of Q i b) = delta a b) /\
    (exists t, btensordot lim blim junk Q R [1] [0] = Ok t /\ wf_bst t /\ teq (dense_of t) (dense_of m)).
Proof.
  intros Hl W N2 NM HC rows cols. destruct (@qr_factors G K lim blim junk Hl m W np_qr mode N2 NM HC)
    as (Q & R & n & ER & WQ & WR & SQ & SR & A1 & A2 & A3 & CC & B1 & B2 & FA & FO & _).
  exists Q, R, n. repeat (split; [assumption|]).
  destruct (@btensordot_spec G K lim blim junk Hl Q R [1] [0] WQ WR CC) as (t & Et & Wt & TE).
  { destruct CC as (_ & _ & _ & C4 & _). specialize (C4 1 (or_introl eq_refl)). unfold ndim in C4. destruct (bord Q); [cbn in C4; lia | discriminate]. }
  exists t. split; [exact Et|]. split; [exact Wt|]. unfold ndim in N2. destruct (bord m) as [|o0 [|o1 [|? ?]]] eqn:Eo; try discriminate.
  destruct TE as [TS TE]. destruct (tensordot_matmul SQ SR) as [MS ME].
  assert (shape (dense_of t) = [rows; cols]) as St by (rewrite TS; exact MS).
  split; [rewrite St; symmetry; apply (mo_shape W Eo)|]. intros ix V. rewrite TE by exact V. rewrite St in V.
  inversion V as [|i ? I0 ? Hi V1]; subst. inversion V1 as [|j ? J0 ? Hj V2]; subst. inversion V2; subst. rewrite ME. apply FA; assumption.
Qed.
Print Assumptions C52_qr.
(** mode 'r' *)
Theorem C52_qr_r (G : chg) (K : cjr) lim blim junk (m : bst G K) np_qr : 0 < lim -> wf_bst m -> ndim m = 2 ->
  (forall q, has_block m q -> qr_r_ok (b_rows m q) (b_cols m q) (b_entries m q) (snd (np_qr OnlyR (b_rows m q) (b_cols m q) (b_entries m q)))) ->
  let rows := nprod (ldims (axis_legs m 0)) in let cols := nprod (ldims (axis_legs m 1)) in
  exists R n, lin_qr lim blim junk np_qr m OnlyR = Ok (None, R) /\ wf_bst R /\ shape (dense_of R) = [n; cols] /\ axis_legs R 1 = axis_legs m 1 /\
    (forall q, has_block m q -> b_rows R q = Nat.min (b_rows m q) (b_cols m q)) /\ (forall q, ~ has_block m q -> b_rows R q = 0) /\
    (forall i j, i < cols -> j < cols -> nsum n (fun l => cj (m_of R l i) *! m_of R l j) = nsum rows (fun l => cj (m_of m l i) *! m_of m l j)).
Proof. intros Hl W. exact (@qr_r_only G K lim blim junk Hl m W np_qr). Qed.
Print Assumptions C52_qr_r.

(** [eigh] and [eig] of a matrix whose column legs match its row legs: as many eigenvalues as rows, the columns of V are
    eigenvectors of the dense matrix, orthonormal when those of the blocks are. *)
Theorem C52_eig (G : chg) (K : cjr) lim blim junk (m : bst G K) np_eig (out : G -> list K * mat K) : 0 < lim -> wf_bst m -> ndim m = 2 ->
  axis_legs m 1 = map flip (axis_legs m 0) ->
  (forall q, has_block m q -> np_eig (b_rows m q) (b_rows m q) (b_entries m q) = Ok (out q) /\ eig_ok (b_rows m q) (b_entries m q) (out q)) ->
  let rows := nprod (ldims (axis_legs m 0)) in
  exists E V, lin_eig lim blim junk np_eig m = Ok (E, V) /\ wf_bst V /\ length (bdata E) = rows /\ shape (dense_of V) = [rows; rows] /\
    axis_legs V 0 = axis_legs m 0 /\ axis_legs V 1 = map flip (axis_legs E 0) /\ bord E = [[0]] /\ length (bcs E) = 1 /\ ldims (axis_legs E 0) = [rows] /\
    (forall q, length (sector (axis_legs E 0) q) = b_rows m q) /\
    (forall i b, i < rows -> b < rows -> nsum rows (fun j => m_of m i j *! m_of V j b) = m_of V i b *! nth b (bdata E) r0) /\
    ((forall q, has_block m q -> orthonormal (snd (out q))) -> forall a b, a < rows -> b < rows -> nsum rows (fun i => cj (m_of V i a) *! m_of V i b) = delta a b).
Proof. intros Hl W N2 HM. exact (@eig_factors G K lim blim junk Hl m W np_eig HM out N2). Qed.
Print Assumptions C52_eig.

(** [inv] of a matrix all of whose blocks are square, and error when one of them is singular *)
Theorem C52_inv (G : chg) (K : cjr) lim blim junk (emp : K) (m : bst G K) np_inv (x : G -> mat K) : 0 < lim -> wf_bst m -> ndim m = 2 ->
  (forall q, b_rows m q = b_cols m q) ->
  (forall q, has_block m q -> np_inv (b_rows m q) (b_rows m q) (b_entries m q) = Ok (x q) /\ inv_ok (b_rows m q) (b_entries m q) (x q)) ->
  let rows := nprod (ldims (axis_legs m 0)) in let cols := nprod (ldims (axis_legs m 1)) in
  exists X, lin_inv lim blim junk emp np_inv m = Ok X /\ wf_bst X /\ shape (dense_of X) = [cols; rows] /\
    axis_legs X 0 = map flip (axis_legs m 1) /\ axis_legs X 1 = map flip (axis_legs m 0) /\
    (forall i j, i < rows -> j < rows -> nsum cols (fun l => m_of m i l *! m_of X l j) = delta i j) /\
    (forall i j, i < cols -> j < cols -> nsum rows (fun l => m_of X i l *! m_of m l j) = delta i j).
Proof. intros Hl W N2. exact (@inv_inverse G K lim blim junk Hl emp m W N2 np_inv x). Qed.
Print Assumptions C52_inv.
Theorem C52_inv_raises (G : chg) (K : cjr) lim blim junk (emp : K) (m : bst G K) np_inv q : 0 < lim -> wf_bst m -> ndim m = 2 ->
  has_block m q -> np_inv (b_rows m q) (b_cols m q) (b_entries m q) = Raise -> (forall r c d, np_inv r c d <> Fuel) ->
  lin_inv lim blim junk emp np_inv m = Raise.
Proof. intros Hl W N2. exact (@inv_raises G K lim blim junk Hl emp m W N2 np_inv q). Qed.
Print Assumptions C52_inv_raises.
(** [pinv]: the Moore-Penrose inverse of the dense matrix *)
Theorem C52_pinv (G : chg) (K : cjr) lim blim junk (emp : K) (m : bst G K) np_inv (x : G -> mat K) : 0 < lim -> wf_bst m -> ndim m = 2 ->
  (forall q, has_block m q -> np_inv (b_rows m q) (b_cols m q) (b_entries m q) = Ok (x q) /\ pinv_ok (b_rows m q) (b_cols m q) (b_entries m q) (x q)) ->
  let rows := nprod (ldims (axis_legs m 0)) in let cols := nprod (ldims (axis_legs m 1)) in
  exists X, lin_inv lim blim junk emp np_inv m = Ok X /\ wf_bst X /\ shape (dense_of X) = [cols; rows] /\
    axis_legs X 0 = map flip (axis_legs m 1) /\ axis_legs X 1 = map flip (axis_legs m 0) /\ penrose rows cols (m_of m) (m_of X).
Proof. intros Hl W N2. exact (@pinv_penrose G K lim blim junk Hl emp m W N2 np_inv x). Qed.
Print Assumptions C52_pinv.

(** QR and RQ of a tensor split at [pivot] succeed and factor it; hypotheses on the shape as for C33. *)
Theorem C52_tensor_qr (G : chg) (K : cjr) lim blim junk np_qr (t : bst G K) pivot : 0 < lim -> wf_bst t -> 0 < pivot < length (bshape t) ->
  (forall d, In d (bshape t) -> 0 < d) -> nth (pivot - 1) (bshape t) 0 <> 1 -> allowed (elegs t) <> [] ->
  let left := firstn pivot (bshape t) in let right := skipn pivot (bshape t) in
  (forall m, breshape t [nprod left; nprod right] = Ok m -> forall q, has_block m q ->
     qr_ok (Nat.min (b_rows m q) (b_cols m q)) (b_rows m q) (b_cols m q) (b_entries m q) (np_qr Reduced (b_rows m q) (b_cols m q) (b_entries m q))) ->
  exists Q R c, let n := length (rep c) in sym_qr lim blim junk np_qr t pivot = Ok (Q, R) /\ new_bond t Q R c /\
    shape (dense_of Q) = left ++ [n] /\ shape (dense_of R) = n :: right /\
    (forall ix jx, valid ix left -> valid jx right -> nsum n (fun b => elt (dense_of Q) (ix ++ [b]) *! elt (dense_of R) (b :: jx)) = elt (dense_of t) (ix ++ jx)) /\
    (forall a b, a < n -> b < n -> lsum (idxs left) (fun ix => cj (elt (dense_of Q) (ix ++ [a])) *! elt (dense_of Q) (ix ++ [b])) = delta a b).
Proof. intros Hl W Hp Hd H1 Ha. exact (@tensor_qr G K lim blim junk Hl np_qr t pivot W Hp Hd H1 Ha). Qed.
Print Assumptions C52_tensor_qr.
Theorem C52_tensor_rq (G : chg) (K : cjr) lim blim junk np_qr (t : bst G K) pivot : 0 < lim -> wf_bst t -> 0 < pivot < length (bshape t) ->
  (forall d, In d (bshape t) -> 0 < d) -> nth (pivot - 1) (bshape t) 0 <> 1 -> allowed (elegs t) <> [] ->
  let left := firstn pivot (bshape t) in let right := skipn pivot (bshape t) in
  (forall m u, breshape t [nprod left; nprod right] = Ok m -> btranspose m [1; 0] = Ok u -> let v := bconj cj u in forall q, has_block v q ->
     qr_ok (Nat.min (b_rows v q) (b_cols v q)) (b_rows v q) (b_cols v q) (b_entries v q) (np_qr Reduced (b_rows v q) (b_cols v q) (b_entries v q))) ->
  exists R Q c, let n := length (rep c) in sym_rq lim blim junk np_qr cj t pivot = Ok (R, Q) /\ new_bond t R Q c /\
    shape (dense_of R) = left ++ [n] /\ shape (dense_of Q) = n :: right /\
    (forall ix jx, valid ix left -> valid jx right -> nsum n (fun b => elt (dense_of R) (ix ++ [b]) *! elt (dense_of Q) (b :: jx)) = elt (dense_of t) (ix ++ jx)) /\
    (forall a b, a < n -> b < n -> lsum (idxs right) (fun jx => elt (dense_of Q) (a :: jx) *! cj (elt (dense_of Q) (b :: jx))) = delta a b).
Proof. intros Hl W Hp Hd H1 Ha. exact (@tensor_rq G K lim blim junk Hl np_qr t pivot W Hp Hd H1 Ha). Qed.
Print Assumptions C52_tensor_rq.

(** ** Examples: U1 charges, integer entries.  Rows with charges 0, 1, 0, columns with charges 0, 0, 1, 1. *)
Lemma block_charge (G : chg) (K : csr) (m : bst G K) q : has_block m q -> In q (map (charge_of (axis_legs m 0)) (idxs (ldims (axis_legs m 0)))).
Proof.
  unfold has_block, b_rows. intros [H _]. destruct (sector (axis_legs m 0) q) as [|x r] eqn:E; [exfalso; apply H; reflexivity|].
  assert (In x (sector (axis_legs m 0) q)) as I by (rewrite E; left; reflexivity). apply In_sector in I as [V C]. rewrite <- C. apply in_map, In_idxs, V.
Qed.
Definition lin_m : bst Z_chg Z_cjr := @BST Z_chg Z_cjr [1; 2; 3; 4; 5; 6]%Z [Raw [0; 1; 0]%Z; Raw [0; 0; 1; 1]%Z] [false; true] [[0]; [1]].
(** rows with two legs: charges 0, 1 and 0, 1; one column leg with charges 0, 1, 1, 2 *)
Definition lin_t : bst Z_chg Z_cjr := @BST Z_chg Z_cjr [1; 2; 3; 4; 5; 6]%Z [Raw [0; 1]%Z; Raw [0; 1]%Z; Raw [0; 1; 1; 2]%Z] [false; false; true] [[0]; [1]; [2]].
(** an oracle that is right for blocks with at most as many rows as columns: Q = -1, R = - the block *)
Definition neg_qr (mode : qr_mode) (r c : nat) (d : list Z_cjr) : mat Z_cjr * mat Z_cjr :=
  (Mat r r (fun i j => if i =? j then (-1)%Z else 0%Z), Mat r c (fun i j => (- nth (i * c + j) d 0)%Z)).
Lemma neg_qr_ok mode r c d : qr_ok (K := Z_cjr) r r c d (neg_qr mode r c d).
Proof.
  unfold neg_qr, qr_ok. cbn [m_rows m_cols m_at]. split; [reflexivity|]. split; [reflexivity|]. split; [reflexivity|]. split; [reflexivity|]. split.
  - intros i j Hi Hj. rewrite (@nsum_single Z_cjr r _ i Hi); [rewrite Nat.eqb_refl; change (-1 * - nth (i * c + j) d 0 = nth (i * c + j) d 0)%Z; lia|]. intros x Hx Hne. rewrite (proj2 (Nat.eqb_neq i x)) by (intros E; apply Hne; symmetry; exact E). reflexivity.
  - intros a b Ha Hb. unfold delta. rewrite (@nsum_single Z_cjr r _ a Ha).
    + rewrite Nat.eqb_refl. destruct (a =? b); reflexivity.
    + intros x Hx Hne. rewrite (proj2 (Nat.eqb_neq x a)) by exact Hne. reflexivity.
Qed.
Example C52_example_qr :
  wf_bst lin_m /\ ndim lin_m = 2 /\
  (forall mode, mode <> OnlyR -> forall q, has_block lin_m q -> qr_ok (qr_size mode (b_rows lin_m q) (b_cols lin_m q)) (b_rows lin_m q) (b_cols lin_m q) (b_entries lin_m q) (neg_qr mode (b_rows lin_m q) (b_cols lin_m q) (b_entries lin_m q))) /\
  lin_qr 10 10 0 neg_qr lin_m Reduced =
    Ok (Some (@BST Z_chg Z_cjr [-1; 0; 0; -1; -1]%Z [Lab [0; 1]%Z [0; 0; 1]; Raw [0; 1; 0]%Z] [true; false] [[1]; [0]]),
        @BST Z_chg Z_cjr [-1; -2; -5; -6; -3; -4]%Z [Lab [0; 1]%Z [0; 0; 1]; Raw [0; 0; 1; 1]%Z] [false; true] [[0]; [1]]).
Proof.
  split; [apply wf_bstb_ok; vm_compute; reflexivity|]. split; [reflexivity|]. split; [|vm_compute; reflexivity].
  intros mode NM q Hq. assert (qr_size mode (b_rows lin_m q) (b_cols lin_m q) = b_rows lin_m q) as ->; [|apply neg_qr_ok].
  apply block_charge in Hq. cbn in Hq. destruct mode; try (exfalso; apply NM; reflexivity); destruct Hq as [<-|[<-|[<-|[]]]]; reflexivity.
Qed.
Example C52_example_qr_r :
  (forall q, has_block lin_m q -> qr_r_ok (b_rows lin_m q) (b_cols lin_m q) (b_entries lin_m q) (snd (neg_qr OnlyR (b_rows lin_m q) (b_cols lin_m q) (b_entries lin_m q)))) /\
  lin_qr 10 10 0 neg_qr lin_m OnlyR = Ok (None, @BST Z_chg Z_cjr [-1; -2; -5; -6; -3; -4]%Z [Lab [0; 1]%Z [0; 0; 1]; Raw [0; 0; 1; 1]%Z] [false; true] [[0]; [1]]).
Proof.
  split; [|vm_compute; reflexivity]. intros q Hq. apply block_charge in Hq. cbn in Hq.
  assert (forall n i, i < n -> n = 2 -> i = 0 \/ i = 1) as H2 by (intros; lia).
  destruct Hq as [<-|[<-|[<-|[]]]]; (split; [reflexivity|]; split; [reflexivity|]; intros i j Hi Hj;
    destruct (H2 _ _ Hi eq_refl) as [-> | ->], (H2 _ _ Hj eq_refl) as [-> | ->]; vm_compute; reflexivity).
Qed.

(** a square matrix with matching legs: rows with charges 0, 1, 0; blocks diag(2, 5) and [7] *)
Definition lin_s : bst Z_chg Z_cjr := @BST Z_chg Z_cjr [2; 0; 7; 0; 5]%Z [Raw [0; 1; 0]%Z; Raw [0; 1; 0]%Z] [false; true] [[0]; [1]].
Definition diag_eig (r c : nat) (d : list Z_cjr) : res (list Z_cjr * mat Z_cjr) :=
  Ok (map (fun i => nth (i * c + i) d 0%Z) (seq 0 r), Mat r r (fun i j => if i =? j then 1%Z else 0%Z)).
Example C52_example_eig :
  wf_bst lin_s /\ ndim lin_s = 2 /\ axis_legs lin_s 1 = map flip (axis_legs lin_s 0) /\
  (forall q, has_block lin_s q -> exists o, diag_eig (b_rows lin_s q) (b_rows lin_s q) (b_entries lin_s q) = Ok o /\ eig_ok (b_rows lin_s q) (b_entries lin_s q) o /\ orthonormal (snd o)) /\
  lin_eig 10 10 0 diag_eig lin_s =
    Ok (@BST Z_chg Z_cjr [2; 5; 7]%Z [Lab [0; 1]%Z [0; 0; 1]] [false] [[0]],
        @BST Z_chg Z_cjr [1; 0; 0; 1; 1]%Z [Lab [0; 1]%Z [0; 0; 1]; Raw [0; 1; 0]%Z] [true; false] [[1]; [0]]).
Proof.
  split; [apply wf_bstb_ok; vm_compute; reflexivity|]. split; [reflexivity|]. split; [reflexivity|]. split; [|vm_compute; reflexivity].
  intros q Hq. eexists. split; [reflexivity|]. apply block_charge in Hq. cbn in Hq.
  assert (forall n i, i < n -> n = 2 -> i = 0 \/ i = 1) as H2 by (intros; lia).
  assert (forall n i, i < n -> n = 1 -> i = 0) as H1 by (intros; lia).
  destruct Hq as [<-|[<-|[<-|[]]]].
  - split; [split; [reflexivity|]; split; [reflexivity|]; split; [reflexivity|]; intros i j Hi Hj | intros i j Hi Hj];
      destruct (H2 _ _ Hi eq_refl) as [-> | ->], (H2 _ _ Hj eq_refl) as [-> | ->]; vm_compute; reflexivity.
  - split; [split; [reflexivity|]; split; [reflexivity|]; split; [reflexivity|]; intros i j Hi Hj | intros i j Hi Hj];
      rewrite (H1 _ _ Hi eq_refl), (H1 _ _ Hj eq_refl); vm_compute; reflexivity.
  - split; [split; [reflexivity|]; split; [reflexivity|]; split; [reflexivity|]; intros i j Hi Hj | intros i j Hi Hj];
      destruct (H2 _ _ Hi eq_refl) as [-> | ->], (H2 _ _ Hj eq_refl) as [-> | ->]; vm_compute; reflexivity.
Qed.

(** blocks [[1,3],[0,1]] and [-1] *)
Definition lin_i : bst Z_chg Z_cjr := @BST Z_chg Z_cjr [1; 3; -1; 0; 1]%Z [Raw [0; 1; 0]%Z; Raw [0; 1; 0]%Z] [false; true] [[0]; [1]].
Definition ex_inv (r c : nat) (d : list Z_cjr) : res (mat Z_cjr) :=
  match d with
  | [a; b; _; e] => if (a * e =? 1)%Z then Ok (Mat 2 2 (fun i j => nth j (nth i [[e; - b]; [0; a]]%Z []) 0%Z)) else Raise
  | [a] => if (a * a =? 1)%Z then Ok (Mat 1 1 (fun _ _ => a)) else Raise
  | _ => Raise
  end.
Example C52_example_inv :
  wf_bst lin_i /\ ndim lin_i = 2 /\ (forall q, b_rows lin_i q = b_cols lin_i q) /\
  (forall q, has_block lin_i q -> exists x, ex_inv (b_rows lin_i q) (b_rows lin_i q) (b_entries lin_i q) = Ok x /\ inv_ok (b_rows lin_i q) (b_entries lin_i q) x /\ pinv_ok (b_rows lin_i q) (b_cols lin_i q) (b_entries lin_i q) x) /\
  lin_inv 10 10 0 (99%Z : Z_cjr) ex_inv lin_i = Ok (@BST Z_chg Z_cjr [1; 0; -1; -3; 1]%Z [Raw [0; 1; 0]%Z; Raw [0; 1; 0]%Z] [true; false] [[1]; [0]]) /\
  has_block lin_s 0%Z /\ ex_inv (b_rows lin_s 0%Z) (b_cols lin_s 0%Z) (b_entries lin_s 0%Z) = Raise /\ (forall r c d, ex_inv r c d <> Fuel) /\
  lin_inv 10 10 0 (99%Z : Z_cjr) ex_inv lin_s = Raise.
Proof.
  split; [apply wf_bstb_ok; vm_compute; reflexivity|]. split; [reflexivity|]. split; [|split; [|split; [vm_compute; reflexivity|]]].
  - intros q. unfold b_rows, b_cols. change (axis_legs lin_i 1) with (map flip (axis_legs lin_i 0)). rewrite sector_flip, qinv_inv. reflexivity.
  - intros q Hq. apply block_charge in Hq. cbn in Hq.
    assert (forall n i, i < n -> n = 2 -> i = 0 \/ i = 1) as H2 by (intros; lia).
    assert (forall n i, i < n -> n = 1 -> i = 0) as H1 by (intros; lia).
    destruct Hq as [<-|[<-|[<-|[]]]]; (eexists; split; [vm_compute; reflexivity|]);
      (split; [split; [reflexivity|]; split; [reflexivity|] | split; [reflexivity|]; split; [reflexivity|]]); repeat split; intros i j Hi Hj;
      first [destruct (H2 _ _ Hi eq_refl) as [-> | ->], (H2 _ _ Hj eq_refl) as [-> | ->] | rewrite (H1 _ _ Hi eq_refl), (H1 _ _ Hj eq_refl)]; vm_compute; reflexivity.
  - split; [split; vm_compute; discriminate|]. split; [vm_compute; reflexivity|]. split; [|vm_compute; reflexivity].
    intros r c [|a [|b [|e [|f [|? ?]]]]]; cbn; try discriminate; destruct (_ =? 1)%Z; discriminate.
Qed.

Example C52_example_diag :
  wf_index (([ca; cc], [false; true]) : index (G := Z_chg)) /\ wf_index (([cc], [true]) : index (G := Z_chg)) /\
  show (K := Z_csr) (rbind (lin_eye 10 10 (99%Z : Z_csr) ([cc; cc], [false; true]) None) (fun t => Ok (dense_of t))) = Ok ([4; 4], [1; 0; 0; 0; 0; 1; 0; 0; 0; 0; 1; 0; 0; 0; 0; 1]%Z) /\
  show (K := Z_csr) (rbind (lin_eye 10 10 (99%Z : Z_csr) ([Raw [0; 1; 0]%Z], [false]) (Some ([Raw [1; 0]%Z], [true]))) (fun t => Ok (dense_of t))) = Ok ([3; 2], [0; 1; 1; 0; 0; 0]%Z) /\
  bc_ok ca /\ show (K := Z_csr) (rbind (lin_diagflat 10 10 0 (@BST Z_chg Z_csr [5; 6; 7]%Z [ca] [true] [[0]])) (fun t => Ok (dense_of t))) = Ok ([3; 3], [5; 0; 0; 0; 6; 0; 0; 0; 7]%Z) /\
  lin_diagonal 10 10 0 lin_s = Ok (@BST Z_chg Z_cjr [2; 5; 7]%Z [Lab [0; 1]%Z [0; 0; 1]] [false] [[0]]).
Proof.
  split; [apply (@wf_indexb_ok Z_chg [([ca; cc], [false; true])]); [reflexivity | left; reflexivity]|].
  split; [apply (@wf_indexb_ok Z_chg [([cc], [true])]); [reflexivity | left; reflexivity]|].
  split; [vm_compute; reflexivity|]. split; [vm_compute; reflexivity|]. split; [exact I|]. split; vm_compute; reflexivity.
Qed.
(** rows with charges 0, 1, 0 and columns with charges 0, 1, 0, 0: a block of shape 2 x 3 and one of shape 1 x 1 *)
Definition lin_r : bst Z_chg Z_cjr := @BST Z_chg Z_cjr [1; 2; 3; 4; 5; 6; 7]%Z [Raw [0; 1; 0]%Z; Raw [0; 1; 0; 0]%Z] [false; true] [[0]; [1]].
Example C52_example_rectangular : wf_bst lin_r /\ ndim lin_r = 2 /\ block_diagonal lin_r 2 2 /\ m_of lin_r 2 2 = 6%Z /\
  lin_diagonal 10 10 0 lin_r = Ok (@BST Z_chg Z_cjr [1; 6; 4]%Z [Lab [0; 1]%Z [0; 0; 1]] [false] [[0]]).
Proof.
  split; [|split; [reflexivity|split; [exists 0%Z, 1; split; vm_compute; reflexivity|split; vm_compute; reflexivity]]].
  apply wf_bstb_ok. vm_compute. reflexivity.
Qed.
Example C52_example_broadcast :
  wf_bst lin_m /\ bord lin_m = [[0]] ++ [[1]] /\ charge_equal (nth 1 (bcs lin_m) (Raw [])) (Raw [0; 0; 1; 1]%Z) = true /\ nth 1 (bfs lin_m) false = negb false /\
  bdata (match broadcast_right 10 10 0 lin_m (@BST Z_chg Z_cjr [2; 3; 5; 7]%Z [Raw [0; 0; 1; 1]%Z] [false] [[0]]) with Ok t => t | _ => lin_m end) = [2; 6; 15; 28; 10; 18]%Z /\
  bdata (match broadcast_left 10 10 0 (@BST Z_chg Z_cjr [2; 3; 5]%Z [Raw [0; 1; 0]%Z] [false] [[0]]) lin_m with Ok t => t | _ => lin_m end) = [2; 4; 9; 12; 25; 30]%Z.
Proof. split; [apply wf_bstb_ok; vm_compute; reflexivity|]. repeat split; vm_compute; reflexivity. Qed.
Example C52_example_norm : lin_norm (K := Z_cjr) (fun x => x * x)%Z Z.sqrt lin_i = 3%Z /\ bdata (lin_map (K := Z_cjr) Z.abs lin_i) = [1; 3; 1; 0; 1]%Z.
Proof. split; reflexivity. Qed.
Example C52_example_tensor :
  wf_bst lin_t /\ bshape lin_t = [2; 2; 4] /\ nth (1 - 1) (bshape lin_t) 0 <> 1 /\ allowed (elegs lin_t) <> [] /\
  (forall m, breshape lin_t [2; 8] = Ok m -> forall q, has_block m q ->
     qr_ok (Nat.min (b_rows m q) (b_cols m q)) (b_rows m q) (b_cols m q) (b_entries m q) (neg_qr Reduced (b_rows m q) (b_cols m q) (b_entries m q))) /\
  (forall m u, breshape lin_t [4; 4] = Ok m -> btranspose m [1; 0] = Ok u -> let v := bconj cj u in forall q, has_block v q ->
     qr_ok (Nat.min (b_rows v q) (b_cols v q)) (b_rows v q) (b_cols v q) (b_entries v q) (neg_qr Reduced (b_rows v q) (b_cols v q) (b_entries v q))) /\
  (exists Q R, sym_qr 10 10 0 neg_qr lin_t 1 = Ok (Q, R) /\ bshape Q = [2; 2] /\ bshape R = [2; 2; 4] /\ bdata Q = [-1; -1]%Z) /\
  (exists Q R, sym_rq 10 10 0 neg_qr cj lin_t 2 = Ok (R, Q) /\ bshape R = [2; 2; 4] /\ bshape Q = [4; 4]).
Proof.
  split; [apply wf_bstb_ok; vm_compute; reflexivity|]. split; [reflexivity|]. split; [vm_compute; lia|]. split; [vm_compute; discriminate|]. split; [|split; [|split]].
  - intros m Em q Hq. vm_compute in Em. injection Em as <-. match goal with |- qr_ok (Nat.min ?a ?b) _ _ _ _ => assert (Nat.min a b = a) as -> end; [|apply neg_qr_ok].
    apply block_charge in Hq. cbn in Hq. destruct Hq as [<-|[<-|[]]]; reflexivity.
  - intros m u Em Eu v q Hq. vm_compute in Em. injection Em as <-. vm_compute in Eu. injection Eu as <-. subst v.
    match goal with |- qr_ok (Nat.min ?a ?b) _ _ _ _ => assert (Nat.min a b = a) as -> end; [|apply neg_qr_ok].
    apply block_charge in Hq. cbn in Hq. destruct Hq as [<-|[<-|[<-|[<-|[]]]]]; reflexivity.
  - eexists _, _. split; [vm_compute; reflexivity|]. repeat split; vm_compute; reflexivity.
  - eexists _, _. split; [vm_compute; reflexivity|]. repeat split; vm_compute; reflexivity.
Qed.
