(** * C43: the contraction-order solvers *)
From Coq Require Import ZArith NArith QArith Qcanon Permutation Reals.
From Verif Require Import Prelude Res Ncon PathSolve PathSolveSpec PathSolveKeep PathSolveNum PathSolveMain PathSolveLabels PathSolveNcon PathSolveNconFacts PathSolveSolver PathSolveExamples.
Set Implicit Arguments.
Unset Strict Implicit.
Open Scope nat_scope.

(** [greedy_size_solve] contracts everything, and its cost is that of the order it returns. *)
Theorem C43_greedy_size (L : lsf) (adj : list (list L)) (n := length adj) (w := get adj) :
  (forall x y, x < n -> y < n -> w x y = w y x) -> (forall x y, x < n -> y < n -> lle l0 (w x y) = true) -> 2 <= n ->
  exists order c, greedy_size_solve adj = Ok (order, Some c) /\ in_range n order /\ total (step_costs w n (singles n) order) = Some c.
Proof. exact (@greedy_size_main L adj). Qed.
Print Assumptions C43_greedy_size.
Example C43_greedy_size_ex : match greedy_size_solve ring_net with Ok (o, Some c) => Some (o, qval c) | _ => None end = Some ([(1, 2); (0, 1)], 54%Q) /\ qsym ring_net = true.
Proof. vm_compute. split; reflexivity. Qed.

(** So does [greedy_cost_solve], unless nothing but dimensions 1 is left at some point. *)
Theorem C43_greedy_cost (L : lsf) (adj : list (list L)) (n := length adj) (w := get adj) :
  (forall x y, x < n -> y < n -> w x y = w y x) -> (forall x y, x < n -> y < n -> lle l0 (w x y) = true) -> 2 <= n -> lively w n ->
  exists order c, greedy_cost_solve adj = (order, Some c) /\ in_range n order /\ total (step_costs w n (singles n) order) = Some c.
Proof. exact (@greedy_cost_main L adj). Qed.
Print Assumptions C43_greedy_cost.
Example C43_greedy_cost_ex : (let '(o, c) := greedy_cost_solve ring_net in (o, option_map qval c)) = ([(1, 2); (0, 1)], Some 54%Q) /\ lively (get ring_net) 3.
Proof. split; [vm_compute; reflexivity|]. left. exists 0. split; [lia | vm_compute; reflexivity]. Qed.

(** [full_solve_complete] returns for every matrix (2 to 64 tensors): a complete order with its cost; when it says
    optimal, or without [max_branch], no order is cheaper among those doing outer products only when nothing else is left. *)
Theorem C43_full (L : lsf) (argsort : list L -> list nat) (adj : list (list L)) (mb : option nat) (n := length adj) (w := get adj) :
  sorts argsort -> (forall x y, x < n -> y < n -> w x y = w y x) -> (forall x y, x < n -> y < n -> lle l0 (w x y) = true) -> 2 <= n -> n <= 64 ->
  exists r, full_solve_complete argsort adj mb = Ok r /\
    (lively w n \/ an_optimal r = true -> in_range n (an_order r) /\ total (step_costs w n (singles n) (an_order r)) = Some (an_cost r)) /\
    (an_optimal r = true \/ mb = None -> forall o c, in_range n o -> no_outer w (singles n) o -> total (step_costs w n (singles n) o) = Some c -> lle (an_cost r) c = true) /\
    (forall o c, greedy_size_solve adj = Ok (o, Some c) -> llt (an_cost r) (lplus c ltol) = true) /\
    (forall o c, greedy_cost_solve adj = (o, Some c) -> llt (an_cost r) (lplus c ltol) = true) /\
    length (an_order r) = n - 1.
Proof. intros H1 H2 H3 H4 H5. exact (@full_main L adj H2 H3 H4 argsort H1 H5 mb). Qed.
Print Assumptions C43_full.
Example C43_full_ex : shown (full_solve_complete arg_sort ring_net None) = Some ([(1, 2); (0, 1)], 54%Q, true) /\ sorts (@arg_sort Q_lsf) /\
  shown (full_solve_complete arg_sort outer_net None) = Some ([(0, 1); (0, 1)], 600%Q, true).
Proof. split; [vm_compute; reflexivity|]. split; [apply arg_sort_ok | vm_compute; reflexivity]. Qed.

(** [ncon_to_adj]: the legs between two tensors, and the open legs of each. *)
Theorem C43_adj (L : lsf) (ldim : nat -> L) shapes labels : network shapes labels -> 1 <= length labels ->
  exists m, ncon_to_adj ldim shapes labels = Ok m /\ length m = length labels /\
    forall x y, x < length labels -> y < length labels -> get m x y = weight shapes labels ldim x y.
Proof. intros H. exact (@adj_main L ldim shapes labels H). Qed.
Print Assumptions C43_adj.
Definition ex_shapes := [[2; 3; 5]; [3; 4; 7; 7]; [4; 2]].
Definition ex_labels := [[1; 2; -1]; [2; 3; 4; 4]; [3; 1]]%Z.
Lemma ex_network : network ex_shapes ex_labels.
Proof.
  assert (forall x, 3 <= x -> rank ex_labels x = 0) as Hr by (intros x H; unfold rank; rewrite nth_overflow by exact H; reflexivity).
  constructor.
  - intros [|[|[|x]]]; try reflexivity. unfold rank. rewrite !nth_overflow by (cbn; lia). reflexivity.
  - intros e. unfold occurs. cbn [concat ex_labels app count_occ]. repeat match goal with |- context [Z.eq_dec ?a ?b] => destruct (Z.eq_dec a b) end; lia.
  - intros x k y j Hk Hj E. destruct (Nat.le_gt_cases 3 x) as [Q|Q]; [rewrite Hr in Hk by exact Q; lia|]. destruct (Nat.le_gt_cases 3 y) as [Q'|Q']; [rewrite Hr in Hj by exact Q'; lia|].
    destruct x as [|[|[|x]]]; try lia; destruct y as [|[|[|y]]]; try lia; cbn in Hk, Hj; destruct k as [|[|[|[|k]]]]; try lia; destruct j as [|[|[|[|j]]]]; try lia; cbn in E; try discriminate E; reflexivity.
  - intros x k Hk. destruct (Nat.le_gt_cases 3 x) as [Q|Q]; [rewrite Hr in Hk by exact Q; lia|]. destruct x as [|[|[|x]]]; try lia; cbn in Hk; destruct k as [|[|[|[|k]]]]; try lia; cbn; lia.
Qed.
Example C43_adj_ex : network ex_shapes ex_labels /\
  (match ncon_to_adj qnat ex_shapes ex_labels with Ok m => map (map qval) m | _ => [] end) = [[5; 3; 2]; [3; 1; 4]; [2; 4; 1]]%Q.
Proof. split; [exact ex_network | vm_compute; reflexivity]. Qed.

(** [ord_to_ncon]: the labels of traces, then for each pair those its two groups of tensors share; every label
    occurring twice exactly once. *)
Theorem C43_ord_to_ncon labels order : (forall e, occurs labels e <= 2) -> 1 <= length labels -> in_range (length labels) order ->
  exists ls, ord_to_ncon labels order = Ok (flat_map traced labels ++ concat ls) /\ contracts labels (singles (length labels)) order ls /\
    Permutation (flat_map traced labels ++ concat ls) (internal labels).
Proof. intros H. exact (@ord_main labels H order). Qed.
Print Assumptions C43_ord_to_ncon.
Example C43_ord_to_ncon_ex : ord_to_ncon ex_labels [(1, 2); (0, 1)] = Ok [4; 3; 1; 2]%Z /\ in_range 3 [(1, 2); (0, 1)].
Proof. split; [vm_compute; reflexivity | cbn; unfold ok_pair; cbn; lia]. Qed.

(** [ncon_solver]: a list of the contracted labels, and the cost of contracting in that order. *)
Theorem C43_ncon_solver (L : lsf) (argsort : list L -> list nat) (ldim : nat -> L) shapes labels (mb : option nat) (n := length labels) (w := weight shapes labels ldim) :
  sorts argsort -> (forall d, 1 <= d -> lle l0 (ldim d) = true) -> network shapes labels -> 2 <= n -> n <= 64 ->
  lively w n \/ (exists con c, ncon_solver argsort ldim shapes labels mb = Ok (con, c, true)) ->
  exists con c opt order ls,
    ncon_solver argsort ldim shapes labels mb = Ok (con, c, opt) /\
    Permutation con (internal labels) /\
    in_range n order /\ total (step_costs w n (singles n) order) = Some c /\ contracts labels (singles n) order ls /\ con = flat_map traced labels ++ concat ls /\
    (opt = true \/ mb = None -> forall o c', in_range n o -> no_outer w (singles n) o -> total (step_costs w n (singles n) o) = Some c' -> lle c c' = true).
Proof. intros H1 H2 H3 H4 H5. exact (@ncon_main L argsort H1 ldim H2 shapes labels H3 H4 H5 mb). Qed.
Print Assumptions C43_ncon_solver.
Example C43_ncon_solver_ex :
  match ncon_solver arg_sort qnat ex_shapes ex_labels None with Ok (con, c, opt) => Some (con, qval c, opt) | _ => None end = Some ([4; 3; 1; 2]%Z, 54%Q, true) /\
  (forall d, 1 <= d -> lle l0 (qnat d) = true) /\ lively (weight ex_shapes ex_labels qnat) 3.
Proof. split; [vm_compute; reflexivity|]. split; [exact qnat_pos|]. left. exists 0. split; [lia | vm_compute; reflexivity]. Qed.

(** With logarithms of dimensions: a total is the logarithm of the sum of the steps, a weight that of a product. *)
Theorem C43_logs : (forall (l : list R_lsf) c, total l = Some c -> pow10 c = fold_right Rplus 0%R (map pow10 l)) /\
  (forall ds, (forall d, In d ds -> 1 <= d) -> pow10 (@lsum R_lsf (map (fun d => log10 (INR d)) ds)) = INR (fold_right Nat.mul 1 ds)) /\
  (forall d, 1 <= d -> @lle R_lsf l0 (log10 (INR d)) = true).
Proof. exact (conj total_sum (conj lsum_product rlog_pos)). Qed.
Print Assumptions C43_logs.
Example C43_logs_ex : (forall d, In d [2; 3] -> 1 <= d) /\ @total R_lsf [1%R; 2%R] <> None.
Proof. split; [cbn; intros d H; lia | discriminate]. Qed.
