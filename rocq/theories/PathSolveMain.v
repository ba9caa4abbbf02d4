(** * PathSolveMain: the solvers on a log-adjacency matrix *)
From Coq Require Import ZArith NArith.
From Verif Require Import Prelude Res PathSolve PathSolveSpec PathSolveAdj PathSolveGreedy PathSolveKeep PathSolveGroups PathSolveFull.
Set Implicit Arguments.
Unset Strict Implicit.

Section Main.
  Context {L : lsf}.
  Variable adj : list (list L).
  Notation n := (length adj).
  Notation w := (get adj).
  Hypothesis w_sym : forall x y, x < n -> y < n -> w x y = w y x.
  Hypothesis w_pos : forall x y, x < n -> y < n -> lle l0 (w x y) = true.
  Hypothesis n_two : 2 <= n.

  Lemma start_ok : partition n (singles n) /\ rep w (singles n) adj /\ nonempty (singles n) /\ length (singles n) = S (n - 1).
  Proof.
    destruct (@singles_rep _ w n adj eq_refl) as [P R]; [reflexivity|]. split; [exact P|]. split; [exact R|]. split; [apply singles_part|]. rewrite singles_len. lia.
  Qed.
  Lemma greedy_size_main : exists o c, greedy_size_solve adj = Ok (o, Some c) /\ in_range n o /\ total (step_costs w n (singles n) o) = Some c.
  Proof.
    destruct start_ok as (P & R & _ & E). destruct (@greedy_size_run _ w n w_sym w_pos (n - 1) (singles n) adj [] None P R E) as (o & Q & I).
    rewrite tallies_total in Q. unfold greedy_size_solve. rewrite Q. cbn [app]. rewrite singles_len in I. exists o.
    destruct o as [|[j i] r]; [cbn in I; lia|]. cbn [step_costs total]. eauto.
  Qed.
  Lemma greedy_cost_main : lively w n -> exists o c, greedy_cost_solve adj = (o, Some c) /\ in_range n o /\ total (step_costs w n (singles n) o) = Some c.
  Proof.
    intros Hl. destruct start_ok as (P & R & NE & E). destruct (@greedy_cost_run _ w n w_sym w_pos (n - 1) Hl (singles n) adj [] None P R NE E) as (o & Q & I).
    rewrite tallies_total in Q. unfold greedy_cost_solve. rewrite Q. cbn [app]. rewrite singles_len in I. exists o.
    destruct o as [|[j i] r]; [cbn in I; lia|]. cbn [step_costs total]. eauto.
  Qed.
  Lemma greedy_cost_some k : forall (m : list (list L)) o c, exists o' c', greedy_cost k m o (Some c) = (o', Some c') /\ length o' = length o + k.
  Proof.
    clear -L. induction k as [|k IH]; intros m o c; cbn [greedy_cost]; [exists o, c; split; [reflexivity | lia]|].
    destruct (IH (merge_adj m (Nat.min (fst (cost_choice m)) (snd (cost_choice m))) (Nat.max (fst (cost_choice m)) (snd (cost_choice m)))) (o ++ [cost_choice m])
      (tally (Some c) (single_cost m (Nat.max (fst (cost_choice m)) (snd (cost_choice m))) (Nat.min (fst (cost_choice m)) (snd (cost_choice m)))))) as (o' & c' & Q & E).
    exists o', c'. split; [exact Q|]. rewrite app_length in E. cbn in E. lia.
  Qed.
  Lemma greedy_cost_any : exists o c, greedy_cost_solve adj = (o, Some c) /\ length o = n - 1.
  Proof.
    unfold greedy_cost_solve. destruct (n - 1) as [|k] eqn:Ek; [lia|]. cbn [greedy_cost].
    match goal with |- exists _ _, greedy_cost k ?m ?o (Some ?c) = _ /\ _ => destruct (greedy_cost_some k m o c) as (o' & c' & Q & E) end.
    exists o', c'. split; [exact Q|]. cbn in E. lia.
  Qed.

  Variable argsort : list L -> list nat.
  Hypothesis Hs : sorts argsort.
  Hypothesis n_64 : n <= 64.
  (** costs of complete orders *)
  Definition cost_is o (c : L) : Prop := total (step_costs w n (singles n) o) = Some c.
  Definition best_joining (c : L) : Prop :=
    forall o c', in_range n o -> no_outer w (singles n) o -> cost_is o c' -> lle c c' = true.

  Lemma full_main mb : exists r, full_solve_complete argsort adj mb = Ok r /\
    (lively w n \/ an_optimal r = true -> in_range n (an_order r) /\ cost_is (an_order r) (an_cost r)) /\
    (an_optimal r = true \/ mb = None -> best_joining (an_cost r)) /\
    (forall o c, greedy_size_solve adj = Ok (o, Some c) -> llt (an_cost r) (lplus c ltol) = true) /\
    (forall o c, greedy_cost_solve adj = (o, Some c) -> llt (an_cost r) (lplus c ltol) = true) /\
    length (an_order r) = n - 1.
  Proof.
    destruct greedy_size_main as (o0 & c0 & E0 & I0 & T0). destruct greedy_cost_any as (o1 & c1 & E1 & L1).
    unfold full_solve_complete. rewrite E0. cbn [rbind snd fst]. rewrite E1. cbn [snd fst].
    set (pick := if llt c0 c1 then (o0, c0) else (o1, c1)).
    assert (pick = (fst pick, snd pick)) as Ep by apply surjective_pairing. set (order := fst pick) in *. set (c := snd pick) in *. rewrite Ep.
    assert (forall a b, lle (a : L) b = true -> llt a (lplus b ltol) = true) as Htol.
    { intros a b H. unfold llt. destruct (lle (lplus b ltol) a) eqn:Ea; [|reflexivity]. exfalso. assert (lle (lplus b ltol) b = true) as Q by (eapply lle_trans; eassumption).
      apply (lle_plus (lopp b)) in Q. rewrite (lplus_c b), <- lplus_a, !lopp_r, lplus_0 in Q. rewrite ltol_pos in Q. discriminate. }
    assert (forall a b b', llt (a : L) b = true -> lle b b' = true -> llt a b' = true) as Hlt.
    { intros a b b' H H'. unfold llt in *. destruct (lle b' a) eqn:Ea; [|reflexivity]. rewrite (@lle_trans _ b b' a H' Ea) in H. discriminate. }
    assert (lle c c0 = true /\ lle c c1 = true) as [Hc0 Hc1].
    { unfold c, pick. destruct (llt c0 c1) eqn:El; cbn [snd]; unfold llt in El; split; try apply lle_refl.
      - apply negb_true_iff in El. apply lle_tot, El.
      - apply negb_false_iff in El. exact El. }
    assert (length order = n - 1) as Lo. { unfold order, pick. destruct (llt c0 c1); cbn [fst]; [apply in_range_len in I0; [apply I0 | lia] | exact L1]. }
    assert (lively w n -> in_range n order /\ cost_is order c) as Hgr.
    { intros Hl. destruct (greedy_cost_main Hl) as (o & c' & Q & I & T). rewrite E1 in Q. inversion Q; subst o c'. unfold order, c, pick. destruct (llt c0 c1); cbn [fst snd]; split; assumption. }
    clearbody order c. clear Ep. clear pick.
    assert (mb = None -> full_loop argsort (lplus c ltol) mb (n - 1) n [first_net adj] 0 = None -> best_joining c) as Hnone.
    { intros Hm Hf o c' Ho Hno Hc. apply in_range_len in Ho as [Ho1 Ho2]; [|lia]. assert (lle (lplus c ltol) c' = true) as Q.
      { eapply (@loop_end_none _ argsort Hs (lplus c ltol) mb w n n_64 w_sym w_pos adj); try eassumption; try reflexivity; try lia; [split; eassumption|]. unfold costs_of. rewrite tallies_total. exact Hc. }
      eapply lle_trans; [|exact Q]. assert (llt c (lplus c ltol) = true) as Q1 by (apply Htol, lle_refl). unfold llt in Q1. apply negb_true_iff in Q1. apply lle_tot, Q1. }
    set (found := match mb with Some 1 => None | _ => full_loop argsort (lplus c ltol) mb (n - 1) n [first_net adj] 0 end).
    assert ((found = None /\ (mb = None -> best_joining c)) \/ full_loop argsort (lplus c ltol) mb (n - 1) n [first_net adj] 0 = found /\ found <> None) as [[Ef Hb]|[Ef Hf]].
    { destruct found eqn:Ef; [right; split; [|discriminate] | left; split; [reflexivity|]]; unfold found in Ef.
      - destruct mb as [[|[|m]]|]; try discriminate Ef; exact Ef.
      - intros Hm. apply Hnone; [exact Hm|]. rewrite Hm in Ef |- *. exact Ef. }
    - rewrite Ef. exists (Answer order c false). split; [reflexivity|]. cbn [an_order an_cost an_optimal]. split; [intros [H|H]; [apply Hgr, H | discriminate]|]. split; [intros [H|H]; [discriminate | apply Hb, H]|].
      split; [|split; [|exact Lo]]; intros o c' H.
      + inversion H; subst. apply Htol, Hc0.
      + inversion H; subst. apply Htol, Hc1.
    - destruct found as [[nets tr]|]; [|congruence].
      destruct (@loop_end _ argsort Hs (lplus c ltol) mb w n n_64 w_sym w_pos adj nets tr n_two eq_refl) as (s & o & c' & -> & Eo & Ec & [Hg1 Hg2] & Hl & Hcost & Hlt' & Hmin & Htr); [reflexivity | exact Ef|].
      rewrite Ec, Eo. exists (Answer o c' (tr =? 0)). split; [reflexivity|]. cbn [an_order an_cost an_optimal].
      unfold costs_of in Hcost. rewrite tallies_total in Hcost.
      split; [intros _; split; [apply in_range_len; [lia | split; assumption] | exact Hcost]|].
      split.
      { intros H. assert (tr = 0) as Ht by (destruct H as [H|H]; [apply Nat.eqb_eq, H | apply Htr, H]). intros o' c'' Ho Hno Hc. apply in_range_len in Ho as [Ho1 Ho2]; [|lia].
        apply Hmin with o'; [exact Ht | split; assumption | exact Ho2 | unfold costs_of; rewrite tallies_total; exact Hc]. }
      split; [|split; [|exact Hl]]; intros o' c'' H.
      + inversion H; subst. eapply Hlt; [exact Hlt'|]. apply lle_plus, Hc0.
      + inversion H; subst. eapply Hlt; [exact Hlt'|]. apply lle_plus, Hc1.
  Qed.
End Main.
