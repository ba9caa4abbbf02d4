(** * PathSolveSolver: [ncon_solver]; costs as numbers of multiplications *)
From Coq Require Import ZArith NArith Permutation Reals Lra.
From Verif Require Import Prelude Res Ncon PathSolve PathSolveSpec PathSolveAdj PathSolveGreedy PathSolveKeep PathSolveGroups PathSolveMain PathSolveLabels PathSolveNcon PathSolveNconFacts PathSolveNum.
Set Implicit Arguments.
Unset Strict Implicit.
Open Scope nat_scope.

Section Ext.
  Context {L : lsf}.
  Variables w w' : nat -> nat -> L.
  Variable n : nat.
  Hypothesis same : forall x y, x < n -> y < n -> w x y = w' x y.
  Lemma shared_ext g h : (forall x, In x g -> x < n) -> (forall x, In x h -> x < n) -> shared w g h = shared w' g h.
  Proof. intros Hg Hh. unfold shared. apply lsum_ext. intros x Hx. apply lsum_ext. intros y Hy. apply same; auto. Qed.
  Lemma legs_ext g : (forall x, In x g -> x < n) -> legs w n g = legs w' n g.
  Proof.
    intros Hg. unfold legs. f_equal; apply lsum_ext; intros x Hx; [apply same; auto|]. apply lsum_ext. intros y Hy. apply filter_In in Hy as [Hy _]. apply in_seq in Hy. apply same; [auto | lia].
  Qed.
  Lemma pair_cost_ext g h : (forall x, In x g -> x < n) -> (forall x, In x h -> x < n) -> pair_cost w n g h = pair_cost w' n g h.
  Proof. intros Hg Hh. unfold pair_cost. rewrite !legs_ext, shared_ext by assumption. reflexivity. Qed.
  Lemma costs_ext o : forall gs, partition n gs -> steps_ok (length gs) o -> step_costs w n gs o = step_costs w' n gs o.
  Proof.
    induction o as [|[j i] o IH]; intros gs P H; [reflexivity|]. cbn [steps_ok] in H. destruct H as [[H1 H2] H3]. cbn [fst snd] in *. cbn [step_costs]. f_equal.
    - apply pair_cost_ext; intros x; apply (in_part P).
    - apply IH; [apply join_partition; (lia || exact P)|]. rewrite join_length by lia. exact H3.
  Qed.
  Lemma joined_ext gs j i : partition n gs -> (joined w gs j i <-> joined w' gs j i).
  Proof. intros P. unfold joined. rewrite shared_ext by (intros x; apply (in_part P)). reflexivity. Qed.
  Lemma no_outer_ext o : forall gs, partition n gs -> steps_ok (length gs) o -> no_outer w gs o -> no_outer w' gs o.
  Proof.
    induction o as [|[j i] o IH]; intros gs P H N; [exact Logic.I|]. cbn [steps_ok no_outer] in *. destruct H as [[H1 H2] H3]. cbn [fst snd] in *. destruct N as [N1 N2]. split.
    - destruct N1 as [N1|N1]; [left; apply joined_ext; assumption|]. right. intros a b Hab Q. apply (N1 a b Hab). apply joined_ext; assumption.
    - apply IH; [apply join_partition; (lia || exact P) | rewrite join_length by lia; exact H3 | exact N2].
  Qed.
  Lemma lively_ext : lively w n -> lively w' n.
  Proof.
    intros [(x & H & Q)|H]; [left; exists x; split; [exact H|]; rewrite <- same by assumption; exact Q|]. right. intros s H1 H2. destruct (H s H1 H2) as (x & y & Hx & Hy & Q1 & Q2 & Q3). exists x, y. rewrite <- same by assumption. auto.
  Qed.
End Ext.

Section Solver.
  Context {L : lsf}.
  Variable argsort : list L -> list nat.
  Hypothesis Hs : sorts argsort.
  Variable ldim : nat -> L.
  Hypothesis ldim_pos : forall d, 1 <= d -> lle l0 (ldim d) = true.
  Variable shapes : list (list nat).
  Variable labels : list (list Z).
  Hypothesis Hnet : network shapes labels.
  Notation n := (length labels).
  Notation w := (weight shapes labels ldim).
  Hypothesis n_two : 2 <= n.
  Hypothesis n_64 : n <= 64.

  Lemma ncon_main mb : lively w n \/ (exists con c, ncon_solver argsort ldim shapes labels mb = Ok (con, c, true)) -> exists con c opt order ls,
    ncon_solver argsort ldim shapes labels mb = Ok (con, c, opt) /\
    Permutation con (internal labels) /\
    in_range n order /\ total (step_costs w n (singles n) order) = Some c /\ contracts labels (singles n) order ls /\ con = flat_map traced labels ++ concat ls /\
    (opt = true \/ mb = None -> forall o c', in_range n o -> no_outer w (singles n) o -> total (step_costs w n (singles n) o) = Some c' -> lle c c' = true).
  Proof.
    intros Hl. destruct (@adj_main L ldim shapes labels Hnet ltac:(lia)) as (m & Em & Lm & Gm). unfold ncon_solver in *. rewrite Em in *. cbn [rbind] in *.
    assert (forall x y, x < n -> y < n -> w x y = get m x y) as Gm' by (intros; symmetry; apply Gm; assumption).
    destruct (@full_main L m) with (argsort := argsort) (mb := mb) as (r & Er & H1 & H2 & _).
    - rewrite Lm. intros x y Hx Hy. rewrite !Gm by assumption. apply (weight_sym ldim Hnet); assumption.
    - rewrite Lm. intros x y Hx Hy. rewrite Gm by assumption. apply (weight_pos Hnet ldim_pos).
    - lia.
    - exact Hs.
    - lia.
    - rewrite Er in *. cbn [rbind] in *.
      assert (Hl' : lively (get m) (length m) \/ an_optimal r = true).
      { destruct Hl as [Hl|(con & c & Hl)]; [left; rewrite Lm; eapply lively_ext; eassumption|]. right. destruct (ord_to_ncon labels (an_order r)); cbn [rbind] in Hl; inversion Hl. reflexivity. }
      destruct (H1 Hl') as [Hr Hc]. rewrite Lm in Hr. destruct (@ord_main labels (nw_twice Hnet) (an_order r)) as (ls & Eo & Co & Po); [lia | exact Hr|].
      rewrite Eo. cbn [rbind]. eexists _, (an_cost r), (an_optimal r), (an_order r), ls. split; [reflexivity|]. split; [exact Po|]. split; [exact Hr|].
      assert (forall o, in_range n o -> step_costs w n (singles n) o = step_costs (get m) n (singles n) o) as Ec.
      { intros o Ho. apply costs_ext; [exact Gm' | apply singles_part | rewrite singles_len; apply in_range_steps, Ho]. }
      split; [rewrite Ec by exact Hr; unfold cost_is in Hc; rewrite Lm in Hc; exact Hc|]. split; [exact Co|]. split; [reflexivity|].
      intros Q o c' Ho Hn Hco. unfold best_joining, cost_is in H2. rewrite Lm in H2. apply H2 with o; [exact Q | exact Ho | | rewrite <- Ec by exact Ho; exact Hco].
      eapply no_outer_ext; [exact Gm' | apply singles_part | rewrite singles_len; apply in_range_steps, Ho | exact Hn].
  Qed.
End Solver.

(** a total is the logarithm of a sum *)
Lemma total_sum (l : list R_lsf) c : total l = Some c -> pow10 c = fold_right Rplus 0%R (map pow10 l).
Proof.
  destruct l as [|x l]; [discriminate|]. intros H. inversion H; subst c. clear H. cbn [map fold_right].
  revert x. induction l as [|y l IH]; intros x; cbn [fold_left map fold_right]; [rewrite Rplus_0_r; reflexivity|].
  rewrite IH. change (@lse R_lsf x y) with (rlse x y). rewrite rlse_sum. rewrite Rplus_assoc. reflexivity.
Qed.
(** a sum of logarithms of dimensions is the logarithm of their product *)
Lemma lsum_product (ds : list nat) : (forall d, In d ds -> 1 <= d) -> pow10 (@lsum R_lsf (map (fun d => log10 (INR d)) ds)) = INR (fold_right Nat.mul 1 ds).
Proof.
  induction ds as [|d ds IH]; intros H; cbn [map lsum fold_right]; [unfold pow10; cbn; rewrite Rmult_0_l; apply exp_0|].
  change (@lplus R_lsf) with Rplus. rewrite pow10_plus, mult_INR. f_equal; [|apply IH; intros x Hx; apply H; right; exact Hx].
  apply pow10_log10. apply lt_0_INR. apply H. left. reflexivity.
Qed.
Lemma rlog_pos d : 1 <= d -> @lle R_lsf l0 (log10 (INR d)) = true.
Proof.
  intros H. apply Rleb_spec. cbn. replace 0%R with (log10 1) by (unfold log10; rewrite ln_1; unfold Rdiv; apply Rmult_0_l). apply log10_le; [lra|]. apply (le_INR 1), H.
Qed.
