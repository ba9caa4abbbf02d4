(** * R_PathSolve: what does not hold of the solvers *)
From Coq Require Import ZArith NArith QArith Qcanon Permutation.
From Verif Require Import Prelude Res Ncon PathSolve PathSolveSpec PathSolveKeep PathSolveNum PathSolveLabels PathSolveNcon PathSolveExamples.
Set Implicit Arguments.
Unset Strict Implicit.
Open Scope nat_scope.

(** "Optimal" orders are not optimal: outer products are not considered while another contraction exists
    (pathsolvers.py:266-275).  T[i,j,K] v[i] w[j] with i = j = 2, K = 100: 600 against 404. *)
Theorem C43_optimal_refuted : exists (adj : list (list Q_lsf)) r order c,
  qsym adj = true /\ length adj = 3 /\ full_solve_complete arg_sort adj None = Ok r /\ an_optimal r = true /\
  in_range 3 order /\ total (step_costs (get adj) 3 (singles 3) order) = Some c /\ llt c (an_cost r) = true.
Proof.
  destruct (full_solve_complete arg_sort outer_net None) as [r| |] eqn:E.
  2-3: exfalso; assert (match full_solve_complete arg_sort outer_net None with Ok _ => true | _ => false end = true) as Q by (vm_compute; reflexivity); rewrite E in Q; discriminate.
  exists outer_net, r, [(1, 2); (0, 1)]. eexists. split; [vm_compute; reflexivity|]. split; [reflexivity|]. split; [exact E|].
  assert (match full_solve_complete arg_sort outer_net None with Ok r => an_optimal r && qle (qdim 600) (an_cost r) | _ => false end = true) as Q by (vm_compute; reflexivity).
  rewrite E in Q. apply andb_prop in Q as [Q1 Q2]. split; [exact Q1|]. split; [cbn; unfold ok_pair; cbn; lia|]. split; [cbn [total step_costs]; reflexivity|].
  unfold llt. apply Bool.negb_true_iff. match goal with |- lle _ ?c = false => assert (lle (qdim 600) c = false) as F by (vm_compute; reflexivity); destruct (lle (an_cost r) c) eqn:G; [|reflexivity]; exfalso; assert (lle (qdim 600) c = true) as H by (eapply lle_trans; [exact Q2 | exact G]); congruence end.
Qed.
Print Assumptions C43_optimal_refuted.

(** [greedy_cost_solve] contracts a tensor with itself when all dimensions left are 1 (pathsolvers.py:117-123). *)
Theorem C43_greedy_cost_ones_refuted : exists adj : list (list Q_lsf), qsym adj = true /\ length adj = 2 /\ fst (greedy_cost_solve adj) = [(0, 0)].
Proof. exists (qmat [[1; 1]; [1; 1]]%positive). split; [vm_compute; reflexivity|]. split; vm_compute; reflexivity. Qed.
Print Assumptions C43_greedy_cost_ones_refuted.

(** The labels returned by [ncon_solver] are then wrong: an open label is listed, another one twice. *)
Theorem C43_ncon_ones_refuted : exists shapes labels con c,
  ncon_solver arg_sort qnat shapes labels (Some 1) = Ok (con, c, false) /\ con = [-1; 1; 1; 2]%Z /\ concat labels = [-1; 1; 1; 2; 2; -2]%Z /\ map (@length nat) shapes = map (@length Z) labels /\
  (forall s, In s shapes -> s = [1; 1]).
Proof.
  exists [[1; 1]; [1; 1]; [1; 1]], [[-1; 1]; [1; 2]; [2; -2]]%Z.
  destruct (ncon_solver arg_sort qnat [[1; 1]; [1; 1]; [1; 1]] [[-1; 1]; [1; 2]; [2; -2]]%Z (Some 1)) as [[[con c] opt]| |] eqn:E.
  2-3: exfalso; assert (match ncon_solver arg_sort qnat [[1; 1]; [1; 1]; [1; 1]] [[-1; 1]; [1; 2]; [2; -2]]%Z (Some 1) with Ok _ => true | _ => false end = true) as Q by (vm_compute; reflexivity); rewrite E in Q; discriminate.
  assert (match ncon_solver arg_sort qnat [[1; 1]; [1; 1]; [1; 1]] [[-1; 1]; [1; 2]; [2; -2]]%Z (Some 1) with Ok (con, c, opt) => Some (con, opt) | _ => None end = Some ([-1; 1; 1; 2]%Z, false)) as Q by (vm_compute; reflexivity).
  rewrite E in Q. inversion Q; subst con opt. exists [-1; 1; 1; 2]%Z, c. split; [reflexivity|]. split; [reflexivity|]. split; [reflexivity|]. split; [reflexivity|]. cbn. intros s H. intuition.
Qed.
Print Assumptions C43_ncon_ones_refuted.

(** One tensor: the costs of both greedy solvers are [None], comparing them raises (pathsolvers.py:166). *)
Theorem C43_single_refuted : forall (L : lsf) (argsort : list L -> list nat) (a : list L) mb, full_solve_complete argsort [a] mb = Raise.
Proof. reflexivity. Qed.
Print Assumptions C43_single_refuted.

(** The search identifies groups of tensors by sums of powers of 2 in 64 bits (pathsolvers.py:180): from 65 tensors
    on different groups have one tag. *)
Theorem C43_tags_refuted : exists x y, x <> y /\ x < 66 /\ y < 66 /\ u64 (2 ^ N.of_nat x) = u64 (2 ^ N.of_nat y).
Proof. exists 64, 65. split; [discriminate|]. split; [lia|]. split; [lia|]. vm_compute. reflexivity. Qed.
Print Assumptions C43_tags_refuted.
