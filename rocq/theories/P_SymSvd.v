(** * Property C33: symmetric singular value decomposition and its truncation across blocks *)
From Coq Require Import Permutation Reals List Lia Lra Sorting.Sorted ZArith.
From Verif Require Import Prelude Algebra Tensor TensorFacts Res Charge ChargeFacts ChargeInst BlockSparse BlockSpec BstSpec BlockFacts BstExamples SvdTrunc SvdTruncFacts SymSvd SymSvdFacts SymSvdLargest SymSvdTensor SymSvdTensorFacts SymSvdSpec SymSvdTensorMain SymSvdReshape.
Import ListNotations.
Set Implicit Arguments.
Unset Strict Implicit.

(** The truncation keeps a leading part of every block, the globally largest values; at most
    max_singular_values of them (exactly as many when there is no error bound); with an error bound the
    discarded values have norm at most the bound unless max_singular_values binds, and no smaller number of
    largest values would do. *)
Theorem C33_truncation (svs : list (list R)) maxsv err relative :
  Forall (StronglySorted Rge) svs -> Forall (Forall (Rle (IZR 0))) svs -> Forall (fun s => s <> []) svs ->
  (err <> None -> relative = true -> svs <> []) ->
  (forall D, maxsv = Some D -> 0 < D) -> (forall e, err = Some e -> Rle (IZR 0) e) ->
  (err = None -> forall D, maxsv = Some D -> D <= length (filter (fun x => if Rlt_dec (IZR 0) x then true else false) (concat svs)) \/ length (concat svs) <= D) ->
  exists new disc, sym_truncate svs maxsv err relative = Ok (new, disc) /\
    length new = length svs /\ length disc <= length svs /\ (forall n, nth n new [] ++ nth n disc [] = nth n svs []) /\
    (forall x y, In x (concat new) -> In y (concat disc) -> Rge x y) /\
    (forall D, maxsv = Some D -> length (concat new) <= D) /\
    (err = None -> length (concat new) = match maxsv with Some D => Nat.min D (length (concat svs)) | None => length (concat svs) end) /\
    (forall e m, err = Some e -> In m (concat svs) -> (forall x, In x (concat svs) -> Rle x m) ->
       let e' := if relative then Rmult e m else e in
       (Rle (norm (concat disc)) e' \/ maxsv = Some (length (concat new))) /\
       (forall kept rest, Permutation (kept ++ rest) (concat svs) -> (forall x y, In x kept -> In y rest -> Rge x y) ->
          length kept < length (concat new) -> Rlt e' (norm rest))).
Proof. exact (@sym_truncate_explicit svs maxsv err relative). Qed.
Print Assumptions C33_truncation.

(** The decomposition of a tensor: whenever the call without truncation succeeds, U diag(s) V is the tensor,
    the new bond is one leg carrying the charges of the singular values in U and, with the opposite flow, in V;
    a truncating call keeps the triples of the globally largest singular values together with their charges. *)
Theorem C33_svd (G : chg) (K : csr) lim blim junk np_svd (inj : R -> K) (t : bst G K) pivot rel0 Uf sf qf Vf sd0 qd0 :
  0 < lim -> wf_bst t -> 0 < pivot < length (bshape t) -> tensor_contract np_svd inj t pivot ->
  sym_svd lim blim junk np_svd t pivot None None rel0 = Ok (Uf, (sf, qf), Vf, (sd0, qd0)) ->
  sd0 = [] /\ rep qd0 = [] /\ bond_legs t Uf Vf sf qf /\
  factors inj (dense_of t) (firstn pivot (bshape t)) (skipn pivot (bshape t)) (dense_of Uf) sf (dense_of Vf) /\
  forall maxsv err relative U s q V sd qd, trunc_args sf maxsv err relative ->
    sym_svd lim blim junk np_svd t pivot maxsv err relative = Ok (U, (s, q), V, (sd, qd)) ->
    length (rep qd) = length sd /\ bond_legs t U V s q /\ keeps_largest sf maxsv err relative s sd /\
    selects (firstn pivot (bshape t)) (skipn pivot (bshape t)) (dense_of Uf) sf (rep qf) (dense_of Vf) (dense_of U) s (rep q) (dense_of V).
Proof. intros H1 H2 H3 H4. exact (@tensor_svd G K lim blim junk H1 np_svd inj t pivot H2 H4 rel0 Uf sf qf Vf sd0 qd0). Qed.
Print Assumptions C33_svd.

(** The calls succeed when no dimension is zero, the last leg on the left is not of dimension one, an entry is
    allowed and the truncation keeps something. *)
Theorem C33_svd_total (G : chg) (K : csr) lim blim junk np_svd (inj : R -> K) (t : bst G K) pivot :
  0 < lim -> wf_bst t -> 0 < pivot < length (bshape t) -> tensor_contract np_svd inj t pivot ->
  (forall d, In d (bshape t) -> 0 < d) -> nth (pivot - 1) (bshape t) 0 <> 1 -> allowed (elegs t) <> [] ->
  exists Uf sf qf Vf qd0,
    (forall relative, sym_svd lim blim junk np_svd t pivot None None relative = Ok (Uf, (sf, qf), Vf, ([], qd0))) /\ sf <> [] /\
    forall maxsv err relative, trunc_args sf maxsv err relative ->
      (exists l kept rest, Permutation l sf /\ StronglySorted Rge l /\ truncate l maxsv err relative = Ok (kept, rest) /\ kept <> []) ->
      exists r, sym_svd lim blim junk np_svd t pivot maxsv err relative = Ok r.
Proof. intros H1 H2 H3 H4 H5 H6. exact (@tensor_svd_total G K lim blim junk H1 np_svd inj t pivot H2 H3 H4 H5 H6). Qed.
Print Assumptions C33_svd_total.

(** For matrices the call always succeeds. *)
Theorem C33_matrix (G : chg) (K : csr) lim blim junk np_svd (inj : R -> K) (m : bst G K) (o0 o1 : list nat) :
  0 < lim -> wf_bst m -> bord m = [o0; o1] -> blocks_contract np_svd inj m o0 o1 ->
  exists Uf sf qf Vf qd0,
    (forall relative, sym_svd_matrix lim blim junk np_svd m None None relative = Ok (Uf, (sf, qf), Vf, ([], qd0))) /\
    rep qd0 = [] /\ bond_legs m Uf Vf sf qf /\ bord Uf = [seq 1 (length o0); [0]] /\ bord Vf = [[0]; seq 1 (length o1)] /\
    factors inj (dense_of m) (firstn 1 (bshape m)) (skipn 1 (bshape m)) (dense_of Uf) sf (dense_of Vf) /\
    (allowed (elegs m) <> [] -> sf <> []) /\
    forall maxsv err relative, trunc_args sf maxsv err relative ->
      exists U s q V sd qd, sym_svd_matrix lim blim junk np_svd m maxsv err relative = Ok (U, (s, q), V, (sd, qd)) /\
        length (rep qd) = length sd /\ bond_legs m U V s q /\ bord U = [seq 1 (length o0); [0]] /\ bord V = [[0]; seq 1 (length o1)] /\
        keeps_largest sf maxsv err relative s sd /\
        selects (firstn 1 (bshape m)) (skipn 1 (bshape m)) (dense_of Uf) sf (rep qf) (dense_of Vf) (dense_of U) s (rep q) (dense_of V).
Proof. intros H. exact (@matrix_svd G K lim blim junk H np_svd inj m o0 o1). Qed.
Print Assumptions C33_matrix.

(** ** Examples *)
Definition R_csr : csr.
Proof. refine (@CSR R (IZR 0) (IZR 1) Rplus Rmult _). constructor; intros; cbn; ring. Defined.
(** charges 0,1 and 0,1 in, 0,1,1,2 out; as a 4x4 matrix the blocks [1], [5 0; 0 2] and [3] *)
Definition svd_t : bst Z_chg R_csr :=
  BST (K := R_csr) [IZR 1; IZR 5; IZR 0; IZR 0; IZR 2; IZR 3] [@Raw Z_chg [0; 1]%Z; @Raw Z_chg [0; 1]%Z; @Raw Z_chg [0; 1; 1; 2]%Z] [false; false; true] [[0]; [1]; [2]].
(** diagonal matrices decompose trivially *)
Definition diag_svd (rows cols : nat) (M : list R) : mat R * list R * mat R :=
  let one := Mat rows cols (fun i j => if Nat.eqb i j then IZR 1 else IZR 0) in
  (one, map (fun i => nth (i * cols + i) M (IZR 0)) (seq 0 rows), one).
Lemma svd_t_contract : tensor_contract (K := R_csr) diag_svd (fun x => x) svd_t 2.
Proof.
  intros o0 o1 E N0 N1 P. assert (o0 = [0; 1] /\ o1 = [2]) as [-> ->].
  { cbn in E. destruct o0 as [|a [|b [|c r]]]; try congruence; cbn in E.
    - injection E as <- <-. vm_compute in P. discriminate.
    - injection E as <- <- <-. auto.
    - injection E as <- <- <- E. destruct r; [|discriminate]. cbn in E. congruence. }
  unfold blocks_contract. cbv zeta. intros q Hr Hc.
  assert (q = 0%Z \/ q = 1%Z \/ q = 2%Z) as Hq.
  { destruct (Z.eq_dec q 0) as [->|A]; [auto|]. destruct (Z.eq_dec q 1) as [->|B]; [auto|]. destruct (Z.eq_dec q 2) as [->|C]; [auto|].
    exfalso. apply Hr. unfold sector.
    match goal with |- filter ?f ?l = [] => assert (forall x, In x l -> f x = false) as F end.
    { intros x Hx. change (In x [[0; 0]; [0; 1]; [1; 0]; [1; 1]]) in Hx.
      match goal with |- (if ?d then true else false) = false => destruct d as [Ex|]; [|reflexivity] end. exfalso.
      destruct Hx as [<-|[<-|[<-|[<-|[]]]]]; vm_compute in Ex; congruence. }
    revert F. match goal with |- (forall x, In x ?l -> _) -> _ => generalize l end. intros l. induction l as [|x l IH]; intros F; [reflexivity|].
    cbn [filter]. rewrite (F x (or_introl eq_refl)). apply IH. intros y Hy. apply F. right. exact Hy. }
  destruct Hq as [-> | [-> | ->]].
  - change (svd_ok (K := R_csr) (fun x => x) 1 1 [IZR 1] (diag_svd 1 1 [IZR 1])).
    unfold svd_ok, diag_svd. cbn [map seq nth length m_rows m_cols m_at Nat.mul Nat.add]. repeat split; try congruence; try (repeat constructor; lra).
    intros [|i] [|j] Hi Hj; try lia. cbv -[IZR Rplus Rmult]. ring.
  - change (svd_ok (K := R_csr) (fun x => x) 2 2 [IZR 5; IZR 0; IZR 0; IZR 2] (diag_svd 2 2 [IZR 5; IZR 0; IZR 0; IZR 2])).
    unfold svd_ok, diag_svd. cbn [map seq nth length m_rows m_cols m_at Nat.mul Nat.add]. repeat split; try congruence; try (repeat constructor; cbn; lra).
    intros [|[|i]] [|[|j]] Hi Hj; try lia; cbv -[IZR Rplus Rmult]; ring.
  - change (svd_ok (K := R_csr) (fun x => x) 1 1 [IZR 3] (diag_svd 1 1 [IZR 3])).
    unfold svd_ok, diag_svd. cbn [map seq nth length m_rows m_cols m_at Nat.mul Nat.add]. repeat split; try congruence; try (repeat constructor; lra).
    intros [|i] [|j] Hi Hj; try lia. cbv -[IZR Rplus Rmult]. ring.
Qed.
(** the hypotheses of C33_svd and C33_svd_total; singular values 1 | 5 2 | 3 *)
Example C33_example :
  wf_bst svd_t /\ bshape svd_t = [2; 2; 4] /\ tensor_contract (K := R_csr) diag_svd (fun x => x) svd_t 2 /\
  nth (2 - 1) (bshape svd_t) 0 <> 1 /\ allowed (elegs svd_t) <> [] /\
  trunc_args [IZR 1; IZR 5; IZR 2; IZR 3] (Some 2) None false /\
  truncate [IZR 5; IZR 3; IZR 2; IZR 1] (Some 2) None false = Ok ([IZR 5; IZR 3], [IZR 2; IZR 1]) /\
  exists U q V qd, sym_svd (K := R_csr) 10 10 0 diag_svd svd_t 2 None None false = Ok (U, ([IZR 1; IZR 5; IZR 2; IZR 3], q), V, ([], qd)) /\ rep q = [0; 1; 1; 2]%Z.
Proof.
  split; [apply wf_bstb_ok; vm_compute; reflexivity|]. split; [reflexivity|]. split; [exact svd_t_contract|].
  split; [vm_compute; lia|]. split; [vm_compute; discriminate|]. split; [|split].
  - split; [intros _ _; discriminate|]. split; [intros D E; injection E as <-; lia|]. split; [discriminate|]. intros _ D E. injection E as <-. left.
    cbn [filter]. repeat (destruct (Rlt_dec _ _); [|exfalso; lra]). cbn. lia.
  - reflexivity.
  - eexists _, _, _, _. split; [vm_compute; reflexivity | vm_compute; reflexivity].
Qed.
