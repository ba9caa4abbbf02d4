(** * Properties C13, C14, C15: backend routines *)
From Coq Require Import ZArith.
From Verif Require Import Prelude Res Algebra Tensor Backends BackendSpec BackendMain DecompFacts.
Set Implicit Arguments.
Unset Strict Implicit.

(** C15: the TensorFlow implementation (sorting of axis pairs, flipping, transposition, reshape,
    matrix product, reshape) computes the contraction; axes may be negative *)
Theorem C15_tensordot2 (R : csr) (a b : tensor R) za zb ax bx :
  Forall2 (names (rank a)) za ax -> Forall2 (names (rank b)) zb bx -> length za = length zb ->
  contractible a b (combine ax bx) ->
  exists c, tensordot2 a b za zb = Ok c /\ teq c (contraction a b (combine ax bx)).
Proof. exact (@tensordot2_names R a b za zb ax bx). Qed.
Print Assumptions C15_tensordot2.

(** an integer [n] means the last [n] axes of [a] and the first [n] of [b] *)
Theorem C15_tensordot2_int (R : csr) (a b : tensor R) n :
  contractible a b (combine (seq (rank a - n) n) (seq 0 n)) -> n <= rank a ->
  exists c, tensordot2_int a b (Z.of_nat n) = Ok c /\
    teq c (contraction a b (combine (seq (rank a - n) n) (seq 0 n))).
Proof. exact (@tensordot2_int_spec R a b n). Qed.
Print Assumptions C15_tensordot2_int.

Theorem C15_tensordot2_int_range (R : csr) (a b : tensor R) z :
  (z < 0 \/ Z.of_nat (rank a) < z)%Z -> tensordot2_int a b z = Raise.
Proof. exact (@tensordot2_int_range R a b z). Qed.
Print Assumptions C15_tensordot2_int_range.

(** the NumPy implementation, with its einsum path for complete inner products, for axes counted
    from the beginning; a complete inner product needs rank 1 to [letters] (26 in the code) *)
Theorem C15_numpy (R : csr) letters (a b : tensor R) ax bx :
  contractible a b (combine ax bx) -> length ax = length bx ->
  (length ax = rank a -> length bx = rank b -> 0 < rank a <= letters) ->
  exists c, np_tensordot letters a b (map Z.of_nat ax) (map Z.of_nat bx) = Ok c /\
    teq c (contraction a b (combine ax bx)).
Proof. exact (@np_tensordot_nonneg R letters a b ax bx). Qed.
Print Assumptions C15_numpy.

(** the same for axes counted from the end *)
Theorem C15_numpy_negative (R : csr) letters (a b : tensor R) ax bx :
  contractible a b (combine ax bx) -> length ax = length bx ->
  (length ax = rank a -> length bx = rank b -> 0 < rank a <= letters) ->
  exists c, np_tensordot letters a b (map (fun i => Z.of_nat i - Z.of_nat (rank a))%Z ax)
                                     (map (fun i => Z.of_nat i - Z.of_nat (rank b))%Z bx) = Ok c /\
    teq c (contraction a b (combine ax bx)).
Proof. exact (@np_tensordot_negative R letters a b ax bx). Qed.
Print Assumptions C15_numpy_negative.

Definition tshow (r : res (tensor Z_csr)) : res (list nat * list Z) :=
  match r with Ok t => Ok (shape t, to_list t) | Raise => Raise | Fuel => Fuel end.

Example C15_example :
  let a := of_list (R := Z_csr) [2; 3; 2] [1; 2; 3; 4; 5; 6; 7; 8; 9; 10; 11; 12]%Z in
  let b := of_list (R := Z_csr) [3; 4; 2] (map Z.of_nat (seq 0 24)) in
  let c := of_list (R := Z_csr) [2; 2; 3] (map Z.of_nat (seq 0 12)) in
  contractible a b [(2, 2); (1, 0)] /\
  Forall2 (names 3) [-1; 1]%Z [2; 1] /\ Forall2 (names 3) [2; 0]%Z [2; 0] /\
  tshow (tensordot2 a b [-1; 1]%Z [2; 0]%Z) = Ok ([2; 4], [244; 286; 328; 370; 550; 664; 778; 892]%Z) /\
  tshow (Ok (contraction a b [(2, 2); (1, 0)])) = Ok ([2; 4], [244; 286; 328; 370; 550; 664; 778; 892]%Z) /\
  tshow (np_tensordot 26 a b [2; 1]%Z [2; 0]%Z) = Ok ([2; 4], [244; 286; 328; 370; 550; 664; 778; 892]%Z) /\
  contractible a c [(2, 1); (1, 2); (0, 0)] /\
  tshow (np_tensordot 26 a c [2; 1; 0]%Z [1; 2; 0]%Z) = Ok ([], [562]%Z) /\
  tshow (np_tensordot 26 a c [-1; -2; -3]%Z [-2; -1; -3]%Z) = Ok ([], [562]%Z) /\
  tshow (tensordot2_int c (of_list (R := Z_csr) [2; 3; 1] (map Z.of_nat (seq 0 6))) 2) = Ok ([2; 1], [55; 145]%Z).
Proof.
  cbv zeta. repeat match goal with |- _ /\ _ => split end; try (vm_compute; reflexivity).
  - split; [|split]; try (repeat constructor; cbn; intuition discriminate).
    intros i j Hi. cbn in Hi. repeat destruct Hi as [Hi|Hi]; try contradiction; injection Hi as <- <-; cbn; lia.
  - repeat constructor; unfold names; cbn; lia.
  - repeat constructor; unfold names; cbn; lia.
  - split; [|split]; try (repeat constructor; cbn; intuition discriminate).
    intros i j Hi. cbn in Hi. repeat destruct Hi as [Hi|Hi]; try contradiction; injection Hi as <- <-; cbn; lia.
Qed.

(** C14: [qr] returns factors whose product over the new bond is the input, provided phase fixing
    meets no zero on the diagonal of r (see C14_zero_diagonal_refuted) *)
Theorem C14_qr (R : cjr) sign qrf (t : tensor R) p nn q0 r0' :
  qrf (as_matrix t p) = (q0, r0') -> is_qr (as_matrix t p) q0 r0' -> is_sign sign ->
  let L := firstn p (shape t) in let Rt := skipn p (shape t) in
  let k := Nat.min (nprod L) (nprod Rt) in
  (nn = true -> forall j, j < k -> elt r0' [j; j] <> r0) ->
  forall il ir, valid il L -> valid ir Rt ->
    bond_product k (fst (qr true sign qrf t p nn)) (snd (qr true sign qrf t p nn)) il ir = elt t (il ++ ir).
Proof. exact (@qr_product R sign qrf t p nn q0 r0'). Qed.
Print Assumptions C14_qr.

Theorem C14_rq (R : cjr) sign qrf (t : tensor R) p nn q0 r0' :
  qrf (adjoint (as_matrix t p)) = (q0, r0') -> is_qr (adjoint (as_matrix t p)) q0 r0' -> is_sign sign ->
  let L := firstn p (shape t) in let Rt := skipn p (shape t) in
  let k := Nat.min (nprod Rt) (nprod L) in
  (nn = true -> forall j, j < k -> elt r0' [j; j] <> r0) ->
  forall il ir, valid il L -> valid ir Rt ->
    bond_product k (fst (rq true sign qrf t p nn)) (snd (rq true sign qrf t p nn)) il ir = elt t (il ++ ir).
Proof. exact (@rq_product R sign qrf t p nn q0 r0'). Qed.
Print Assumptions C14_rq.

(** in general exactly the terms with a zero on the diagonal of r are lost *)
Theorem C14_qr_exact (R : cjr) sign qrf (t : tensor R) p q0 r0' (dec : forall x y : R, {x = y} + {x <> y}) :
  qrf (as_matrix t p) = (q0, r0') -> is_qr (as_matrix t p) q0 r0' -> is_sign sign ->
  let L := firstn p (shape t) in let Rt := skipn p (shape t) in
  let k := Nat.min (nprod L) (nprod Rt) in
  forall il ir, valid il L -> valid ir Rt ->
    bond_product k (fst (qr true sign qrf t p true)) (snd (qr true sign qrf t p true)) il ir =
    nsum k (fun j => if dec (elt r0' [j; j]) r0 then r0 else elt q0 [ravel L il; j] *! elt r0' [j; ravel Rt ir]).
Proof. exact (@qr_product_exact R sign qrf t p q0 r0' dec). Qed.
Print Assumptions C14_qr_exact.

(** shapes of the factors *)
Theorem C14_shapes (R : cjr) c sign qrf (t : tensor R) p nn q0 r0' :
  qrf (as_matrix t p) = (q0, r0') -> is_qr (as_matrix t p) q0 r0' ->
  let L := firstn p (shape t) in let Rt := skipn p (shape t) in
  let k := Nat.min (nprod L) (nprod Rt) in
  shape (fst (qr c sign qrf t p nn)) = L ++ [k] /\ shape (snd (qr c sign qrf t p nn)) = k :: Rt.
Proof.
  exact (fun E H => conj (proj1 (@qr_general R c sign qrf t p nn q0 r0' E H))
                         (proj1 (proj2 (@qr_general R c sign qrf t p nn q0 r0' E H)))).
Qed.
Print Assumptions C14_shapes.

Definition zqr (m : tensor Z_csr) : tensor Z_csr * tensor Z_csr :=
  (of_list (R := Z_csr) [2; 2] [1; 0; 0; 1]%Z, of_list (R := Z_csr) [2; 2] [-2; 3; 0; -5]%Z).
Example C14_example :
  let t := of_list (R := Z_csr) [2; 1; 2] [-2; 3; 0; -5]%Z in
  is_qr (R := Z_cjr) (as_matrix (R := Z_cjr) t 1) (fst (zqr t)) (snd (zqr t)) /\
  is_sign (R := Z_cjr) Z.sgn /\ (forall j, j < 2 -> elt (snd (zqr t)) [j; j] <> 0%Z) /\
  to_list (fst (qr (R := Z_cjr) true Z.sgn zqr t 1 true)) = [-1; 0; 0; -1]%Z /\
  to_list (snd (qr (R := Z_cjr) true Z.sgn zqr t 1 true)) = [2; -3; 0; 5]%Z.
Proof.
  cbv zeta. split; [|split; [|split]].
  - split; [reflexivity|]. split; [reflexivity|]. intros i j Hi Hj. cbn in Hi, Hj.
    destruct i as [|[|i]]; [| |exfalso; lia]; (destruct j as [|[|j]]; [| |exfalso; lia]); vm_compute; reflexivity.
  - split; [reflexivity|]. intros x Hx. change (Z.sgn x * Z.sgn x = 1)%Z. change (x <> 0%Z) in Hx. destruct x; cbn; congruence.
  - intros j Hj. destruct j as [|[|j]]; [discriminate | discriminate | lia].
  - vm_compute. auto.
Qed.

(** C13 (tensors): [svd] splits the singular values into a kept prefix and the rest; the factors have
    the announced shapes; if all discarded values are zero the product of the factors is the input *)
Theorem C13_svd_factors (R : cjr) svdf nkeep (t : tensor R) p u0 s0 v0 :
  svdf (as_matrix t p) = (u0, s0, v0) -> is_svd (as_matrix t p) u0 s0 v0 ->
  let L := firstn p (shape t) in let Rt := skipn p (shape t) in
  let '(u, s, vh, rest) := svd svdf nkeep t p in
  let k := Nat.min (nkeep s0) (length s0) in
  shape u = L ++ [k] /\ shape vh = k :: Rt /\ length s = k /\ s ++ rest = s0 /\
  forall il ir, valid il L -> valid ir Rt ->
    nsum k (fun j => elt u (il ++ [j]) *! nth j s r0 *! elt vh (j :: ir)) =
    nsum k (fun j => elt u0 [ravel L il; j] *! nth j s0 r0 *! elt v0 [j; ravel Rt ir]).
Proof. exact (@svd_general R svdf nkeep t p u0 s0 v0). Qed.
Print Assumptions C13_svd_factors.

Theorem C13_svd_product (R : cjr) svdf nkeep (t : tensor R) p u0 s0 v0 :
  svdf (as_matrix t p) = (u0, s0, v0) -> is_svd (as_matrix t p) u0 s0 v0 ->
  let L := firstn p (shape t) in let Rt := skipn p (shape t) in
  let '(u, s, vh, rest) := svd svdf nkeep t p in
  (forall x, In x rest -> x = r0) ->
  forall il ir, valid il L -> valid ir Rt ->
    nsum (length s) (fun j => elt u (il ++ [j]) *! nth j s r0 *! elt vh (j :: ir)) = elt t (il ++ ir).
Proof. exact (@svd_product R svdf nkeep t p u0 s0 v0). Qed.
Print Assumptions C13_svd_product.

(** in general the input is the product of the factors plus a remainder whose squared norm is that
    of the discarded singular values *)
Theorem C13_svd_remainder (R : cjr) svdf nkeep (t : tensor R) p u0 s0 v0 :
  svdf (as_matrix t p) = (u0, s0, v0) -> is_svd (as_matrix t p) u0 s0 v0 ->
  let L := firstn p (shape t) in let Rt := skipn p (shape t) in
  orthonormal_cols u0 (nprod L) (length s0) -> orthonormal_rows v0 (length s0) (nprod Rt) ->
  let '(u, s, vh, rest) := svd svdf nkeep t p in
  exists E : list nat -> list nat -> R,
    (forall il ir, valid il L -> valid ir Rt ->
       elt t (il ++ ir) = nsum (length s) (fun j => elt u (il ++ [j]) *! nth j s r0 *! elt vh (j :: ir)) +! E il ir) /\
    lsum (idxs L) (fun il => lsum (idxs Rt) (fun ir => E il ir *! cj (E il ir))) = lsum rest (fun x => x *! cj x).
Proof. exact (@svd_remainder R svdf nkeep t p u0 s0 v0). Qed.
Print Assumptions C13_svd_remainder.

Definition zsvd (m : tensor Z_csr) : tensor Z_csr * list Z * tensor Z_csr :=
  (of_list (R := Z_csr) [2; 2] [0; 1; 1; 0]%Z, [5; 3]%Z, of_list (R := Z_csr) [2; 2] [1; 0; 0; -1]%Z).
Example C13_tensor_example :
  let t := of_list (R := Z_csr) [2; 1; 2] [0; -3; 5; 0]%Z in
  let '(u0, s0, v0) := zsvd t in
  let '(u, s, vh, rest) := svd (R := Z_cjr) zsvd (fun _ => 1) t 1 in
  is_svd (R := Z_cjr) (as_matrix (R := Z_cjr) t 1) u0 s0 v0 /\
  orthonormal_cols (R := Z_cjr) u0 2 2 /\ orthonormal_rows (R := Z_cjr) v0 2 2 /\
  shape u = [2; 1] /\ to_list u = [0; 1]%Z /\ s = [5]%Z /\ rest = [3]%Z /\ shape vh = [1; 1; 2] /\ to_list vh = [1; 0]%Z.
Proof.
  vm_compute; split; [|split; [|split]].
  - split; [reflexivity|]. split; [reflexivity|]. split; [reflexivity|]. intros i j Hi Hj.
    destruct i as [|[|i]]; [| |exfalso; lia]; (destruct j as [|[|j]]; [| |exfalso; lia]); vm_compute; reflexivity.
  - intros i j Hi Hj. destruct i as [|[|i]]; [| |exfalso; lia]; (destruct j as [|[|j]]; [| |exfalso; lia]); vm_compute; reflexivity.
  - intros i j Hi Hj. destruct i as [|[|i]]; [| |exfalso; lia]; (destruct j as [|[|j]]; [| |exfalso; lia]); vm_compute; reflexivity.
  - auto 10.
Qed.
