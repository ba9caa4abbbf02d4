(** * C66: the updates of the MERA example *)
From Coq Require Import List ZArith Lia.
From Verif Require Import Prelude Algebra Tensor TensorFacts Backends DecompFacts Krylov KrylovInst KrylovExamples Mera MeraSpec MeraFacts.
Set Implicit Arguments.
Unset Strict Implicit.

(** the update is an isometry if numpy's vh is unitary, that is if there are no more columns than rows *)
Theorem C66_isometry (K : cfd) svdf (env : tensor K) p u0 v0 s0 :
  svdf (as_matrix env p) = (u0, s0, v0) -> is_svd (as_matrix env p) u0 s0 v0 ->
  orthonormal_cols u0 (nprod (firstn p (shape env))) (length s0) ->
  (forall j j', j < nprod (skipn p (shape env)) -> j' < nprod (skipn p (shape env)) ->
     nsum (length s0) (fun a => elt v0 [a; j] *! cj (elt v0 [a; j'])) = if j =? j' then r1 else r0) ->
  isometry (firstn p (shape env)) (skipn p (shape env)) (polar_update svdf env p).
Proof. intros Eq Hs Hu Hc. exact (polar_isometry Eq Hs Hu Hc). Qed.
Print Assumptions C66_isometry.

(** its contraction with the environment is the sum of the singular values *)
Theorem C66_value (K : cfd) svdf (env : tensor K) p u0 v0 s0 :
  svdf (as_matrix env p) = (u0, s0, v0) -> is_svd (as_matrix env p) u0 s0 v0 ->
  orthonormal_cols u0 (nprod (firstn p (shape env))) (length s0) ->
  orthonormal_rows v0 (length s0) (nprod (skipn p (shape env))) ->
  objective env (polar_update svdf env p) = lsum s0 (fun x => x).
Proof. intros Eq Hs Hu Hv. exact (polar_value Eq Hs Hu Hv). Qed.
Print Assumptions C66_value.

(** no isometry has a larger real part of that contraction, and none a smaller one than the negative of the update *)
Theorem C66_optimal (K : cfd) svdf (env : tensor K) p u0 v0 s0 x :
  svdf (as_matrix env p) = (u0, s0, v0) -> is_svd (as_matrix env p) u0 s0 v0 ->
  orthonormal_cols u0 (nprod (firstn p (shape env))) (length s0) ->
  orthonormal_rows v0 (length s0) (nprod (skipn p (shape env))) ->
  (forall y, In y s0 -> cpos y) -> isometry (firstn p (shape env)) (skipn p (shape env)) x ->
  le (re2 (objective env x)) (re2 (objective env (polar_update svdf env p))) /\
  le (cop (re2 (objective env (polar_update svdf env p)))) (re2 (objective env x)).
Proof.
  intros Eq Hs Hu Hv Hp Hx. split; [exact (polar_best Eq Hs Hu Hv Hp Hx)|exact (polar_least Eq Hs Hu Hv Hp Hx)].
Qed.
Print Assumptions C66_optimal.

(** a complex environment of shape 2,2,2 with singular values 2 and 1 *)
Definition mu : tensor QI_cfd := @Tensor QI_cfd [4; 2] (fun ix => match ix with
  | [0; 0] => ci 3 0 5 | [1; 0] => ci 0 4 5 | [2; 0] => ci 0 0 1 | [0; 1] => ci 0 4 5 | [1; 1] => ci 3 0 5 | _ => ci 0 0 1 end).
Definition mv : tensor QI_cfd := @Tensor QI_cfd [2; 2] (fun ix => match ix with
  | [0; 1] => ci 0 1 1 | [1; 0] => ci 1 0 1 | _ => ci 0 0 1 end).
Definition ms : list QI_cfd := [ci 2 0 1; ci 1 0 1].
Definition menv : tensor QI_cfd := reshape (@Tensor QI_cfd [4; 2] (fun ix =>
  nsum 2 (fun a => elt mu [nth 0 ix 0; a] *! nth a ms r0 *! elt mv [a; nth 1 ix 0]))) [2; 2; 2].
Definition msvd (_ : tensor QI_cfd) := (mu, ms, mv).

Example C66_ex : msvd (as_matrix menv 2) = (mu, ms, mv) /\ is_svd (as_matrix menv 2) mu ms mv /\
  orthonormal_cols mu (nprod (firstn 2 (shape menv))) (length ms) /\
  orthonormal_rows mv (length ms) (nprod (skipn 2 (shape menv))) /\
  (forall j j', j < nprod (skipn 2 (shape menv)) -> j' < nprod (skipn 2 (shape menv)) ->
     nsum (length ms) (fun a => elt mv [a; j] *! cj (elt mv [a; j'])) = if j =? j' then r1 else r0) /\
  (forall y, In y ms -> cpos y) /\
  ceqb (objective menv (update_iso msvd menv)) (ci 3 0 1) = true /\
  ceqb (elt (update_iso msvd menv) [0; 0; 1]) (ci 0 (-3) 5) = true.
Proof.
  split; [reflexivity|]. split; [|split; [|split; [|split; [|split; [|split; vm_compute; reflexivity]]]]].
  - split; [reflexivity|split; [reflexivity|split; [reflexivity|]]]. intros i j Hi Hj.
    change (DecompFacts.rows (as_matrix menv 2)) with 4 in Hi. change (cols (as_matrix menv 2)) with 2 in Hj. apply ceqb_eq.
    do 4 (destruct i as [|i]; [do 2 (destruct j as [|j]; [vm_compute; reflexivity|]); exfalso; lia|]). exfalso; lia.
  - intros a b Ha Hb. change (length ms) with 2 in *. apply ceqb_eq.
    do 2 (destruct a as [|a]; [do 2 (destruct b as [|b]; [vm_compute; reflexivity|]); exfalso; lia|]). exfalso; lia.
  - intros a b Ha Hb. change (length ms) with 2 in *. apply ceqb_eq.
    do 2 (destruct a as [|a]; [do 2 (destruct b as [|b]; [vm_compute; reflexivity|]); exfalso; lia|]). exfalso; lia.
  - intros a b Ha Hb. change (nprod (skipn 2 (shape menv))) with 2 in *. apply ceqb_eq.
    do 2 (destruct a as [|a]; [do 2 (destruct b as [|b]; [vm_compute; reflexivity|]); exfalso; lia|]). exfalso; lia.
  - intros y [<-|[<-|[]]]; split; try reflexivity; vm_compute; discriminate.
Qed.

(** shift_ham subtracts a multiple of the identity *)
Theorem C66_shift (K : cfd) (eigvalsh : tensor K -> list K) (h : tensor K) o il ir : shape h = [2; 2; 2] ++ [2; 2; 2] ->
  valid il [2; 2; 2] -> valid ir [2; 2; 2] ->
  shape (shift_ham eigvalsh h o) = [2; 2; 2] ++ [2; 2; 2] /\
  elt (shift_ham eigvalsh h o) (il ++ ir) =
    elt h (il ++ ir) -! (match o with Some c => c | None => amax (eigvalsh (reshape h [8; 8])) end *!
                         (if list_eq_dec Nat.eq_dec il ir then r1 else r0)).
Proof. exact (@shift_elt K eigvalsh h o il ir). Qed.
Print Assumptions C66_shift.

(** by default the shifted Hamiltonian is negative semi-definite *)
Theorem C66_negative (K : cfd) (eigvalsh : tensor K -> list K) (h : tensor K) (v : nat -> nat -> K) (x : list nat -> K) :
  shape h = [2; 2; 2] ++ [2; 2; 2] ->
  let w := eigvalsh (reshape h [8; 8]) in
  length w = 8 -> (forall y, In y w -> cj y = y) ->
  (forall i j, i < 8 -> j < 8 -> nsum 8 (fun k => v i k *! nth k w r0 *! cj (v j k)) = elt (reshape h [8; 8]) [i; j]) ->
  (forall i j, i < 8 -> j < 8 -> nsum 8 (fun k => v i k *! cj (v j k)) = if i =? j then r1 else r0) ->
  le (lsum (idxs [2; 2; 2]) (fun il => lsum (idxs [2; 2; 2]) (fun ir =>
        cj (x il) *! elt (shift_ham eigvalsh h None) (il ++ ir) *! x ir))) r0.
Proof. exact (@shift_neg K eigvalsh h v x). Qed.
Print Assumptions C66_negative.

Definition hv (i k : nat) : QI_cfd := match i, k with
  | 0, 0 => ci 3 0 5 | 0, 1 => ci 0 4 5 | 1, 0 => ci 0 4 5 | 1, 1 => ci 3 0 5
  | _, _ => if i =? k then ci 1 0 1 else ci 0 0 1 end.
Definition hw : list QI_cfd := map (fun z => ci z 0 1) [-3; -2; -2; 0; 1; 1; 2; 5]%Z.
Definition hh : tensor QI_cfd := reshape (@Tensor QI_cfd [8; 8] (fun ix =>
  nsum 8 (fun k => hv (nth 0 ix 0) k *! nth k hw r0 *! cj (hv (nth 1 ix 0) k)))) [2; 2; 2; 2; 2; 2].

Example C66_negative_ex : shape hh = [2; 2; 2] ++ [2; 2; 2] /\ length hw = 8 /\ (forall y, In y hw -> cj y = y) /\
  (forall i j, i < 8 -> j < 8 -> nsum 8 (fun k => hv i k *! nth k hw r0 *! cj (hv j k)) = elt (reshape hh [8; 8]) [i; j]) /\
  (forall i j, i < 8 -> j < 8 -> nsum 8 (fun k => hv i k *! cj (hv j k)) = if i =? j then r1 else r0) /\
  ceqb (amax hw) (ci 5 0 1) = true /\ ceqb (elt hh [0; 0; 0; 0; 0; 1]) (ci 0 12 25) = true.
Proof.
  split; [reflexivity|]. split; [reflexivity|]. split; [|split; [|split; [|split; vm_compute; reflexivity]]].
  - intros y Hy. apply in_map_iff in Hy. destruct Hy as (z & <- & Hz). apply ceqb_eq.
    destruct Hz as [<-|[<-|[<-|[<-|[<-|[<-|[<-|[<-|[]]]]]]]]]; vm_compute; reflexivity.
  - intros i j Hi Hj. apply ceqb_eq. revert i j Hi Hj.
    apply (@all2_ok 8 (fun i j => ceqb (nsum 8 (fun k => hv i k *! nth k hw r0 *! cj (hv j k))) (elt (reshape hh [8; 8]) [i; j]))).
    vm_compute. reflexivity.
  - intros i j Hi Hj. apply ceqb_eq. revert i j Hi Hj.
    apply (@all2_ok 8 (fun i j => ceqb (nsum 8 (fun k => hv i k *! cj (hv j k))) (if i =? j then r1 else r0))).
    vm_compute. reflexivity.
Qed.
