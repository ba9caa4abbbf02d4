(** * Property C12: splitting a node *)
From Coq Require Import ZArith.
From Verif Require Import Prelude Res Algebra Tensor TensorFacts Einsum EinsumFacts NetworkFacts Graph GraphBase GraphContract GraphOps GraphValue GraphOuter GraphConnect GraphProg GraphSched GraphQuery GraphQueryFacts GraphCompound GraphCopy GraphCopyFacts GraphExamples Backends DecompFacts SplitNode SplitSpec.
Set Implicit Arguments.
Unset Strict Implicit.

(** For any division of the edges of a node into left and right edges, given in any order, the calls
    succeed.  [two_way] (SplitSpec.v) says what the new graph looks like: well-formed, two new nodes,
    the first with the left edges in the given order followed by one new bond, the second with the
    bond followed by the right edges; the remaining nodes are untouched, the old node is left with
    dangling edges.  The value of every network containing the node is unchanged.  The matrix
    decomposition is any function whose factors multiply back to the matrix. *)
Theorem C12_split_node_qr (R : cjr) (s : @st R) n nd L Rt qrf name :
  wf s -> bipartition s n nd L Rt -> named s n -> unused nd name ->
  (forall m q r, rank m = 2 -> qrf m = (q, r) -> is_qr m q r) ->
  exists s' N1 N2, split_node_qr qrf n L Rt name s = (s', Some (N1, N2)) /\ two_way s s' n nd L Rt name N1 N2 /\
    forall S a, rest_ok s n S a -> netval s' (N1 :: N2 :: S) a = netval s (n :: S) a.
Proof. exact (@split_qr R s n nd L Rt qrf name). Qed.
Print Assumptions C12_split_node_qr.
Theorem C12_split_node_rq (R : cjr) (s : @st R) n nd L Rt qrf name :
  wf s -> bipartition s n nd L Rt -> named s n -> unused nd name ->
  (forall m q r, rank m = 2 -> qrf m = (q, r) -> is_qr m q r) ->
  exists s' N1 N2, split_node_rq qrf n L Rt name s = (s', Some (N1, N2)) /\ two_way s s' n nd L Rt name N1 N2 /\
    forall S a, rest_ok s n S a -> netval s' (N1 :: N2 :: S) a = netval s (n :: S) a.
Proof. exact (@split_rq R s n nd L Rt qrf name). Qed.
Print Assumptions C12_split_node_rq.
(** SVD: the new network is the old one with the tensor replaced by the sum of the kept dyads, hence
    unchanged if the dropped singular values, which are returned, are all zero *)
Theorem C12_split_node (R : cjr) (s : @st R) n nd L Rt svdf nkeep sqrtf name :
  wf s -> bipartition s n nd L Rt -> named s n -> unused nd name ->
  (forall m u sv vh, rank m = 2 -> svdf m = (u, sv, vh) -> is_svd m u sv vh) ->
  (forall m u sv vh x, svdf m = (u, sv, vh) -> In x sv -> sqrtf x *! sqrtf x = x) ->
  exists s' N1 N2 M u sv vh, split_node svdf nkeep sqrtf n L Rt name s = (s', Some (N1, N2, skipn (nkeep sv) sv)) /\
    unfolds s nd L Rt M /\ svdf M = (u, sv, vh) /\ two_way s s' n nd L Rt name N1 N2 /\
    (forall T S a, first_dyads s nd L Rt (Nat.min (nkeep sv) (length sv)) u sv vh T -> rest_ok s n S a ->
       netval s' (N1 :: N2 :: S) a = value_with s nd T S a) /\
    (forall S a, (forall x, In x (skipn (nkeep sv) sv) -> x = r0) -> rest_ok s n S a ->
       netval s' (N1 :: N2 :: S) a = netval s (n :: S) a).
Proof. exact (@split_svd R s n nd L Rt svdf nkeep sqrtf name). Qed.
Print Assumptions C12_split_node.
Theorem C12_split_node_full_svd (R : cjr) (s : @st R) n nd L Rt svdf nkeep lname rname :
  wf s -> bipartition s n nd L Rt -> named s n -> unused nd lname -> unused nd rname -> (lname <> None -> lname <> rname) ->
  (forall m u sv vh, rank m = 2 -> svdf m = (u, sv, vh) -> is_svd m u sv vh) ->
  exists s' N1 N3 N2 M u sv vh, split_node_full_svd svdf nkeep n L Rt lname rname s = (s', Some (N1, N3, N2, skipn (nkeep sv) sv)) /\
    unfolds s nd L Rt M /\ svdf M = (u, sv, vh) /\ three_way s s' n nd L Rt lname rname N1 N3 N2 (firstn (nkeep sv) sv) /\
    (forall T S a, first_dyads s nd L Rt (Nat.min (nkeep sv) (length sv)) u sv vh T -> rest_ok s n S a ->
       netval s' (N1 :: N3 :: N2 :: S) a = value_with s nd T S a) /\
    (forall S a, (forall x, In x (skipn (nkeep sv) sv) -> x = r0) -> rest_ok s n S a ->
       netval s' (N1 :: N3 :: N2 :: S) a = netval s (n :: S) a).
Proof. exact (@split_full R s n nd L Rt svdf nkeep lname rname). Qed.
Print Assumptions C12_split_node_full_svd.
(** edge lists which are not such a division are rejected by all four (edges must be edges of the
    graph; the code also accepts edges that lost their place, see DESIGN.md) *)
Theorem C12_split_rejects (R : cjr) (s : @st R) n nd L Rt qrf svdf nkeep sqrtf b1 b2 :
  wf s -> s_nodes s n = Some nd -> (forall e, In e (L ++ Rt) -> exists m, on s m e) ->
  ~ (NoDup (L ++ Rt) /\ Permutation (L ++ Rt) (n_edges nd)) ->
  snd (split_node_qr qrf n L Rt b1 s) = None /\ snd (split_node_rq qrf n L Rt b1 s) = None /\
  snd (split_node svdf nkeep sqrtf n L Rt b1 s) = None /\ snd (split_node_full_svd svdf nkeep n L Rt b1 b2 s) = None.
Proof. exact (@split_rejects R s n nd L Rt qrf svdf nkeep sqrtf b1 b2). Qed.
Print Assumptions C12_split_rejects.

(** Simple decompositions meeting the contracts: one factor is the identity *)
Definition eye (k : nat) : tensor Z_cjr := @Tensor Z_cjr [k; k] (fun ix => if Nat.eqb (nth 0 ix 0) (nth 1 ix 0) then 1%Z else 0%Z).
Definition ex_qrf (m : tensor Z_cjr) : tensor Z_cjr * tensor Z_cjr := if Nat.leb (rows (R := Z_cjr) m) (cols (R := Z_cjr) m) then (eye (rows (R := Z_cjr) m), m) else (m, eye (cols (R := Z_cjr) m)).
Definition ex_svdf (m : tensor Z_cjr) : tensor Z_cjr * list Z * tensor Z_cjr :=
  (fst (ex_qrf m), repeat 1%Z (Nat.min (rows (R := Z_cjr) m) (cols (R := Z_cjr) m)), snd (ex_qrf m)).
Lemma ex_qrf_ok m q r : rank m = 2 -> ex_qrf m = (q, r) -> is_qr (R := Z_cjr) m q r.
Proof.
  intros Hm. unfold ex_qrf, is_qr. assert (shape m = [rows m; cols m]) as Hs.
  { unfold rank, rows, cols in *. destruct (shape m) as [|a [|b [|c l]]]; try discriminate. reflexivity. }
  destruct (Nat.leb_spec (rows (R := Z_cjr) m) (cols (R := Z_cjr) m)) as [H|H]; intros E; injection E as <- <-; cbn [shape eye].
  - replace (Nat.min (rows (R := Z_cjr) m) (cols (R := Z_cjr) m)) with (rows (R := Z_cjr) m) by lia. split; [reflexivity|]. split; [exact Hs|]. intros i j Hi Hj.
    rewrite (@nsum_single Z_cjr _ _ i Hi); cbn [elt eye nth].
    + rewrite Nat.eqb_refl. apply Z.mul_1_l.
    + intros l Hl Hne. destruct (Nat.eqb_spec i l); [congruence|]. reflexivity.
  - replace (Nat.min (rows (R := Z_cjr) m) (cols (R := Z_cjr) m)) with (cols (R := Z_cjr) m) by lia. split; [exact Hs|]. split; [reflexivity|]. intros i j Hi Hj.
    rewrite (@nsum_single Z_cjr _ _ j Hj); cbn [elt eye nth].
    + rewrite Nat.eqb_refl. apply Z.mul_1_r.
    + intros l Hl Hne. destruct (Nat.eqb_spec l j); [congruence|]. apply Z.mul_0_r.
Qed.
Lemma ex_svdf_ok m u sv vh : rank m = 2 -> ex_svdf m = (u, sv, vh) -> is_svd (R := Z_cjr) m u sv vh.
Proof.
  intros Hm E. unfold ex_svdf in E. injection E as <- <- <-. destruct (ex_qrf m) as [q r] eqn:E. destruct (ex_qrf_ok Hm E) as (H1 & H2 & H3).
  split; [exact H1|]. rewrite repeat_length. split; [reflexivity|]. split; [exact H2|]. intros i j Hi Hj. rewrite <- (H3 i j Hi Hj). apply nsum_ext.
  intros l Hl. change (elt q [i; l] * nth l (repeat 1 (Nat.min (rows (R := Z_cjr) m) (cols (R := Z_cjr) m))) 0 * elt r [l; j] = elt q [i; l] * elt r [l; j])%Z.
  rewrite (nth_indep _ _ 1%Z) by (rewrite repeat_length; exact Hl). rewrite nth_repeat, Z.mul_1_r. reflexivity.
Qed.
Lemma ex_sqrt_ok m u sv vh x : ex_svdf m = (u, sv, vh) -> In x sv -> (x * x = x)%Z.
Proof. intros E Hx. unfold ex_svdf in E. injection E as <- <- <-. apply repeat_spec in Hx. subst x. reflexivity. Qed.

(** Node 1 (3x2x2) of the example network, edges 10, 9 (to node 0) and 12 (to node 2), is split into
    [12] and [9; 10] *)
Definition ex_nd : @node Z_csr := Node (zt (-3) [3; 2; 2]) [10; 9; 12] [0; 1; 2].
Definition ex_q := split_node_qr (R := Z_cjr) ex_qrf 1 [12] [9; 10] (Some 5) ex_s.
Definition ex_f := split_node_full_svd (R := Z_cjr) ex_svdf (fun _ => 1) 1 [12] [9; 10] (Some 5) (Some 6) ex_s.
Lemma ex_nd_ok : bipartition (R := Z_cjr) ex_s 1 ex_nd [12] [9; 10].
Proof.
  split; [reflexivity|]. split; [repeat constructor; cbn; intuition discriminate|]. cbn.
  apply perm_trans with [12; 10; 9]; [constructor; constructor|]. apply perm_trans with [10; 12; 9]; constructor. constructor.
Qed.
Example C12_example : wf ex_s /\ bipartition (R := Z_cjr) ex_s 1 ex_nd [12] [9; 10] /\ named (R := Z_cjr) ex_s 1 /\
  unused (R := Z_cjr) ex_nd (Some 5) /\ unused (R := Z_cjr) ex_nd (Some 6) /\ rest_ok (R := Z_cjr) ex_s 1 [0; 2] (fun _ => 1) /\
  snd ex_q = Some (3, 4) /\
  option_map (fun nd => (n_edges nd, shape (n_t nd), n_names nd)) (s_nodes (fst ex_q) 3) = Some ([12; 18], [2; 2], [2; 5]) /\
  option_map (fun nd => (n_edges nd, shape (n_t nd), n_names nd)) (s_nodes (fst ex_q) 4) = Some ([18; 9; 10], [2; 2; 3], [5; 1; 0]) /\
  netval (R := Z_csr) (fst ex_q) [3; 4; 0; 2] (fun _ => 1) = netval (R := Z_csr) ex_s [1; 0; 2] (fun _ => 1) /\
  netval (R := Z_csr) (fst ex_q) [3; 4; 0; 2] (fun _ => 1) <> 0%Z /\
  option_map snd (snd ex_f) = Some [1%Z] /\ option_map (fun x => fst (fst x)) (snd ex_f) = Some (3, 4) /\
  netval (R := Z_csr) (fst ex_f) [3; 4; 5; 0; 2] (fun _ => 1) <> netval (R := Z_csr) ex_s [1; 0; 2] (fun _ => 1) /\
  (** a node with a trace edge cannot be split *)
  snd (split_node_qr (R := Z_cjr) ex_qrf 0 [9; 10] [11; 11] None ex_s) = None.
Proof.
  split; [exact ex_wf|]. split; [exact ex_nd_ok|]. split; [apply namedb_spec; vm_compute; reflexivity|].
  split; [intros x E; injection E as <-; cbn; intuition discriminate|]. split; [intros x E; injection E as <-; cbn; intuition discriminate|]. split.
  - split; [cbn; intuition discriminate|]. split; [intros m [<-|[<-|[]]]; apply is_nodeb_spec; vm_compute; reflexivity|].
    intros x Hx. pose proof (proj2 (count_occ_In Nat.eq_dec _ x) (eq_ind_r (fun k => k > 0) (le_n 1) Hx)) as Hi.
    revert Hx. vm_compute in Hi. repeat (destruct Hi as [<-|Hi]; [vm_compute; solve [discriminate|auto]|]). destruct Hi.
  - do 4 (split; [vm_compute; reflexivity|]). split; [vm_compute; discriminate|]. do 2 (split; [vm_compute; reflexivity|]).
    split; [vm_compute; discriminate|]. vm_compute. reflexivity.
Qed.
