(** * P_Linalg: C44, reshape, transpose, pivot and kron *)
From Verif Require Import Prelude Algebra Tensor TensorFacts Res Einsum Graph GraphBase GraphContract GraphOps GraphValue GraphQuery GraphProg GraphSched GraphQueryFacts GraphCompound GraphExamples Linalg LinalgSpec LinalgFacts LinalgNode.
From Coq Require Import ZArith String.
Set Implicit Arguments.
Unset Strict Implicit.

(** reshape to a shape of the same size succeeds and keeps the row-major order; to another size it raises.
    [small]: every dimension is below 2^31 *)
Theorem C44_reshape (R : csr) any (t : tensor R) s : small s -> nprod s = nprod (shape t) ->
  exists u, np_reshape any t (map Z.of_nat s) = Ok u /\ is_reshape t s u.
Proof.
  intros S E. exists (reshape t s). rewrite np_reshape_nat by exact S. apply Nat.eqb_eq in E as E'. rewrite E'.
  split; [reflexivity | apply reshape_meets, E].
Qed.
Print Assumptions C44_reshape.
Theorem C44_reshape_size (R : csr) any (t : tensor R) s : small s -> nprod s <> nprod (shape t) ->
  np_reshape any t (map Z.of_nat s) = Raise.
Proof. intros S E. rewrite np_reshape_nat by exact S. apply Nat.eqb_neq in E. rewrite E. reflexivity. Qed.
Print Assumptions C44_reshape_size.
(** one dimension given as -1 is the one that makes the sizes agree *)
Theorem C44_reshape_infer (R : csr) any (t : tensor R) s1 s2 u : small s1 -> small s2 ->
  np_reshape any t (map Z.of_nat s1 ++ (-1)%Z :: map Z.of_nat s2) = Ok u ->
  exists d, nprod (s1 ++ d :: s2) = nprod (shape t) /\ is_reshape t (s1 ++ d :: s2) u.
Proof. apply np_reshape_infers. Qed.
Print Assumptions C44_reshape_infer.
(** reshape to the same shape, and there and back, is the identity *)
Theorem C44_reshape_same (R : csr) any (t : tensor R) : small (shape t) ->
  exists u, np_reshape any t (map Z.of_nat (shape t)) = Ok u /\ teq u t.
Proof.
  intros S. destruct (C44_reshape any S eq_refl) as (u & E & Hs & Hl). exists u. split; [exact E|]. apply teq_to_list. auto.
Qed.
Print Assumptions C44_reshape_same.
Theorem C44_reshape_back (R : csr) any (t u v : tensor R) s : small s -> small (shape t) ->
  np_reshape any t (map Z.of_nat s) = Ok u -> np_reshape any u (map Z.of_nat (shape t)) = Ok v -> teq v t.
Proof.
  intros S St. rewrite np_reshape_nat by exact S. destruct (Nat.eqb_spec (nprod s) (nprod (shape t))) as [E|]; [|discriminate].
  intros [= <-]. rewrite np_reshape_nat by exact St. simpl. rewrite E, Nat.eqb_refl. intros [= <-].
  apply teq_to_list. split; [reflexivity|]. rewrite !reshape_to_list; auto.
Qed.
Print Assumptions C44_reshape_back.

(** transposing by a permutation, or by none (all axes reversed) *)
Theorem C44_transpose (R : csr) (t : tensor R) p : is_perm (rank t) p ->
  exists u, np_transpose t (Some (map Z.of_nat p)) = Ok u /\ is_transpose t p u.
Proof. intros P. exists (transpose t p). split; [apply np_transpose_nat, P | apply transpose_meets, P]. Qed.
Print Assumptions C44_transpose.
Theorem C44_transpose_none (R : csr) (t : tensor R) :
  exists u, np_transpose t None = Ok u /\ is_transpose t (rev (seq 0 (rank t))) u.
Proof. exists (transpose t (rev (seq 0 (rank t)))). split; [reflexivity | apply transpose_meets, rev_perm]. Qed.
Print Assumptions C44_transpose_none.
Theorem C44_transpose_only (R : csr) (t : tensor R) z u : np_transpose t (Some z) = Ok u ->
  exists p, is_perm (rank t) p /\ is_transpose t p u /\
    Forall2 (fun i j => i = Z.of_nat j \/ i = (Z.of_nat j - Z.of_nat (rank t))%Z) z p.
Proof. apply np_transpose_ok. Qed.
Print Assumptions C44_transpose_only.
(** by p and then by q: by their composition; when q undoes p, the identity *)
Theorem C44_transpose_compose (R : csr) (t u v w : tensor R) p q : is_perm (rank t) p -> is_perm (rank t) q ->
  np_transpose t (Some (map Z.of_nat p)) = Ok u -> np_transpose u (Some (map Z.of_nat q)) = Ok v ->
  np_transpose t (Some (map Z.of_nat (map (fun k => nth k p 0) q))) = Ok w -> teq v w.
Proof.
  intros P Q. rewrite np_transpose_nat by exact P. intros [= <-].
  assert (Q' : is_perm (rank (transpose t p)) q).
  { unfold rank in *. simpl. rewrite gather_length, (is_perm_length P). exact Q. }
  rewrite np_transpose_nat by exact Q'. intros [= <-]. intros W. apply np_transpose_ok in W. destruct W as (pq & PQ & Tw & F).
  assert (E : pq = map (fun k => nth k p 0) q).
  { assert (J : forall i, In i pq -> i < rank t) by (intros i Hi; apply (is_perm_In _ PQ), Hi).
    clear - F J. remember (map (fun k => nth k p 0) q) as l eqn:El. clear El. revert pq F J.
    induction l as [|x l IH]; intros pq F J; inversion F; subst; [reflexivity|]. f_equal; [|apply IH; [assumption|]; intros; apply J; right; assumption].
    match goal with H : _ \/ _ |- ?y = x => assert (y < rank t) by (apply J; left; reflexivity) end. lia. }
  subst pq. eapply is_transpose_teq; [exact PQ | | exact Tw].
  eapply is_transpose_comp; [exact P | exact Q | apply transpose_meets, P | apply transpose_meets, Q'].
Qed.
Print Assumptions C44_transpose_compose.
Theorem C44_transpose_inverse (R : csr) (t u v : tensor R) p q : is_perm (rank t) p -> is_perm (rank t) q ->
  (forall k, k < rank t -> nth (nth k q 0) p 0 = k) ->
  np_transpose t (Some (map Z.of_nat p)) = Ok u -> np_transpose u (Some (map Z.of_nat q)) = Ok v -> teq v t.
Proof.
  intros P Q I. rewrite np_transpose_nat by exact P. intros [= <-].
  assert (Q' : is_perm (rank (transpose t p)) q).
  { unfold rank in *. simpl. rewrite gather_length, (is_perm_length P). exact Q. }
  rewrite np_transpose_nat by exact Q'. intros [= <-].
  assert (C := is_transpose_comp P Q (transpose_meets P) (transpose_meets Q')).
  replace (map (fun k => nth k p 0) q) with (seq 0 (rank t)) in C.
  - apply (is_transpose_teq (is_perm_seq _) C (is_transpose_id t)).
  - apply nth_ext with (d := 0) (d' := 0); rewrite ?seq_length, ?map_length, ?(is_perm_length Q); [reflexivity|].
    intros k Hk. rewrite seq_nth by exact Hk. change (map (fun k => nth k p 0) q) with (gather 0 p q).
    rewrite nth_gather by (rewrite (is_perm_length Q); exact Hk). symmetry. apply I, Hk.
Qed.
Print Assumptions C44_transpose_inverse.

(** pivot is the matrix with the axes left of the pivot numbering the rows; an axis above the rank is refused *)
Theorem C44_pivot (R : csr) any (t : tensor R) axis k : k <= rank t ->
  (axis = Z.of_nat k \/ (axis < 0 /\ axis = Z.of_nat k - Z.of_nat (rank t)) \/ (k = 0%nat /\ axis < - Z.of_nat (rank t)))%Z ->
  (Z.of_nat (nprod (firstn k (shape t))) < 2 ^ 31)%Z -> (Z.of_nat (nprod (skipn k (shape t))) < 2 ^ 31)%Z ->
  exists u, backend_pivot any t axis = Ok u /\ is_matrix_of t k u.
Proof. apply backend_pivot_at. Qed.
Print Assumptions C44_pivot.
Theorem C44_pivot_bad (R : csr) any (t : tensor R) axis : (Z.of_nat (rank t) < axis)%Z -> backend_pivot any t axis = Raise.
Proof. apply backend_pivot_bad. Qed.
Print Assumptions C44_pivot_bad.

(** linalg.operations.kron succeeds on operands of even rank, and as a matrix it is the Kronecker product of the operands
    as matrices *)
Theorem C44_kron (R : csr) na nb (a b : tensor R) : Nat.even (rank a) = true -> Nat.even (rank b) = true ->
  exists c, kron (na, a) (nb, b) = Ok (na, c) /\
    shape c = (firstn (rank a / 2) (shape a) ++ firstn (rank b / 2) (shape b)) ++
              (skipn (rank a / 2) (shape a) ++ skipn (rank b / 2) (shape b)) /\
    forall A B C, is_matrix_of a (rank a / 2) A -> is_matrix_of b (rank b / 2) B ->
      is_matrix_of c (rank a / 2 + rank b / 2) C -> is_kron A B C.
Proof. apply kron_ok. Qed.
Print Assumptions C44_kron.
Theorem C44_kron_odd (R : csr) na nb (a b : tensor R) : Nat.odd (rank a) = true \/ Nat.odd (rank b) = true ->
  kron (na, a) (nb, b) = Raise.
Proof. apply kron_odd. Qed.
Print Assumptions C44_kron_odd.
(** node_linalg.kron: the first halves of the edges of all nodes, then the second halves; the entries are the products *)
Theorem C44_node_kron (R : csr) ns (s s' : @st R) f : wf s -> NoDup ns -> node_kron ns s = (s', Some f) ->
  let half n := List.length (edges_at0 s n) / 2 in
  let ins := flat_map (fun n => firstn (half n) (edges_at0 s n)) ns in
  let outs := flat_map (fun n => skipn (half n) (edges_at0 s n)) ns in
  wf s' /\ (forall n, In n ns -> exists nd, s_nodes s n = Some nd /\ Nat.even (rank (n_t nd)) = true) /\
  exists nd, s_nodes s' f = Some nd /\ n_edges nd = ins ++ outs /\ shape (n_t nd) = map (edim s) (ins ++ outs) /\
    forall a, (forall e, In e (ins ++ outs) -> a e < edim s e) ->
      elt (n_t nd) (map a ins ++ map a outs) = netprod (net_of s ns) a.
Proof. apply node_kron_ok. Qed.
Print Assumptions C44_node_kron.

Definition res_data (r : res (tensor Z_csr)) : option (list nat * list Z) :=
  match r with Ok u => Some (shape u, to_list u) | _ => None end.
Example C44_ex :
  res_data (np_reshape false (zt 1 [2; 3]) [3; 2]%Z) = Some ([3; 2], [1; 2; 3; 4; 5; 6]%Z) /\
  res_data (np_reshape false (zt 1 [2; 3]) [3; -1]%Z) = Some ([3; 2], [1; 2; 3; 4; 5; 6]%Z) /\
  res_data (np_reshape false (zt 1 [2; 3]) [4]%Z) = None /\
  res_data (np_transpose (zt 1 [2; 3]) (Some [-1; 0]%Z)) = Some ([3; 2], [1; 4; 2; 5; 3; 6]%Z) /\
  res_data (np_transpose (zt 1 [2; 3]) (Some [1; 1]%Z)) = None /\
  res_data (backend_pivot false (zt 1 [2; 1; 3]) (-1)%Z) = Some ([2; 3], [1; 2; 3; 4; 5; 6]%Z) /\
  small [3; 2] /\ nprod [3; 2] = nprod [2; 3] /\ is_perm 2 [1; 0] /\ (forall k, k < 2 -> nth (nth k [1; 0] 0) [1; 0] 0 = k).
Proof.
  do 6 (split; [vm_compute; reflexivity|]).
  split; [constructor; [vm_compute; reflexivity | constructor; [vm_compute; reflexivity | constructor]]|].
  split; [reflexivity|]. split; [apply perm_swap|].
  intros [|[|k]] H; [reflexivity | reflexivity | lia].
Qed.
Definition tens_data (r : res (@Tens Z_csr)) : option (string * list nat * list Z) :=
  match r with Ok (n, u) => Some (n, shape u, to_list u) | _ => None end.
Example C44_kron_ex :
  tens_data (kron ("numpy"%string, zt 1 [2; 1]) ("numpy"%string, zt 1 [2; 2])) =
    Some ("numpy"%string, [2; 2; 1; 2], [1; 2; 3; 4; 2; 4; 6; 8]%Z) /\
  tens_data (kron ("numpy"%string, zt 1 [2; 1]) ("numpy"%string, zt 1 [2])) = None /\
  forall k, is_matrix_of (zt 1 [2; 1]) k (as_mat (zt 1 [2; 1]) k).
Proof. split; [vm_compute; reflexivity|]. split; [vm_compute; reflexivity|]. intros k. apply as_matrix_meets. Qed.
Definition ex_kr_ops : list (@op Z_csr) := [OpNode (zt 1 [2; 1]) None; OpNode (zt 1 [2; 2]) None].
Definition ex_kr : @st Z_csr := run (exec_ops idl ex_kr_ops) (@empty_st Z_csr).
Lemma ex_kr_wf : wf ex_kr.
Proof. apply (@exec_ops_wf Z_csr idl idl_perm ex_kr_ops (@empty_st Z_csr) ex_kr tt empty_wf); apply run_eq; vm_compute; reflexivity. Qed.
Example C44_node_kron_ex :
  let m := node_kron (R := Z_csr) [0; 1] in
  wf ex_kr /\ m ex_kr = (run m ex_kr, Some 2) /\ edges_at (run m ex_kr) 2 = Some [0; 2; 1; 3] /\
  entries (run m ex_kr) 2 = Some ([2; 2; 1; 2], [1; 2; 3; 4; 2; 4; 6; 8]%Z).
Proof. cbv zeta. split; [exact ex_kr_wf|]. split; [apply run_eq; vm_compute; reflexivity|]. split; vm_compute; reflexivity. Qed.
