(** * PathSolveFull: the full search *)
From Coq Require Import Permutation NArith.
From Verif Require Import Prelude Res PathSolve PathSolveSpec PathSolveAdj PathSolveGreedy PathSolveKeep PathSolveGroups.
Set Implicit Arguments.
Unset Strict Implicit.

(** ** one step, for arbitrary networks *)
Section Step.
  Context {L : lsf}.
  Variable argsort : list L -> list nat.
  Hypothesis Hsort : sorts argsort.
  Variable bound : L.
  Variable mb : option nat.
  Notation pnet := (@pnet L).
  Notation cand := (@cand L).
  Implicit Types (nets : list pnet) (s : pnet) (st : @acc L).

  Definition linked (j i : nat) s : Prop := llt l0 (get (p_adj s) j i) = true.
  Definition usable (allow : bool) (j i : nat) s : Prop := allow = true \/ linked j i s.
  Definition made (j i : nat) s : cand := (advance j i s, stable j i s).
  Record inv allow nets (ps : list (nat * nat)) st : Prop := {
    iv_sound : forall x, In x (a_final st) -> exists j i s, In (j, i) ps /\ In s nets /\ usable allow j i s /\ x = made j i s /\ llt (ccost x) bound = true;
    iv_cover : a_trunc st = 0 -> forall j i s, In (j, i) ps -> In s nets -> usable allow j i s -> llt (ccost (made j i s)) bound = true ->
      exists y, In y (a_final st) /\ ckey y = ckey (made j i s) /\ lle (ccost y) (ccost (made j i s)) = true;
    iv_none : a_none st = true -> a_final st = [] /\ a_trunc st = 0;
    iv_outer : a_outer st = true <-> allow = false /\ forall j i s, In (j, i) ps -> In s nets -> ~ linked j i s;
    iv_trunc : mb = None -> a_trunc st = 0
  }.
  Lemma inv_start allow nets : inv allow nets [] (Acc [] 0 (negb allow) true).
  Proof.
    split; cbn; auto; try (intros; contradiction). destruct allow; cbn; split; try (intros [? _]; discriminate); try discriminate; auto.
  Qed.
  Lemma inv_step allow nets ps st j i : inv allow nets ps st -> inv allow nets (ps ++ [(j, i)]) (try_pair argsort bound mb allow nets st (j, i)).
  Proof.
    intros I. unfold try_pair. set (us := filter (fun s => allow || llt l0 (get (p_adj s) j i)) nets).
    assert (Hus : forall s, In s us <-> In s nets /\ usable allow j i s).
    { intros s. unfold us. rewrite filter_In, Bool.orb_true_iff. unfold usable, linked. tauto. }
    assert (Hin : forall j' i', In (j', i') (ps ++ [(j, i)]) <-> In (j', i') ps \/ (j' = j /\ i' = i)).
    { intros j' i'. rewrite in_app_iff. cbn. split; [intros [?|[Q|[]]]; [auto | injection Q as <- <-; auto] | intros [?|[-> ->]]; auto]. }
    destruct us as [|u us'] eqn:Eus.
    - assert (forall s, In s nets -> ~ usable allow j i s) as Z by (intros s Hs U; assert (In s []) as [] by (apply Hus; auto)). destruct I as [I1 I2 I3 I4 I5]. split.
      + intros x Hx. destruct (I1 x Hx) as (j' & i' & s & A & B). exists j', i', s. split; [apply Hin; auto | exact B].
      + intros T j' i' s Hp Hs U. apply Hin in Hp as [Hp|[-> ->]]; [apply I2; assumption | exfalso; exact (Z s Hs U)].
      + exact I3.
      + rewrite I4. split; intros [A B]; (split; [exact A|]).
        * intros j' i' s Hp Hs K. apply Hin in Hp as [Hp|[-> ->]]; [exact (B j' i' s Hp Hs K) | apply (Z s Hs); right; exact K].
        * intros j' i' s Hp Hs K. apply (B j' i' s); auto. apply Hin; auto.
      + exact I5.
    - rewrite <- Eus in *. set (cands := map (fun s => (advance j i s, stable j i s)) us).
      match goal with |- context [filter ?f cands] => set (kept := filter f cands) end.
      assert (Hc : forall x, In x kept <-> exists s, In s nets /\ usable allow j i s /\ x = made j i s /\ llt (ccost x) bound = true).
      { intros x. unfold kept. rewrite filter_In. unfold cands. rewrite in_map_iff. split.
        - intros [(s & <- & Hs) Hb]. apply Hus in Hs as [Hs U]. exists s. auto.
        - intros (s & Hs & U & -> & Hb). split; [exists s; split; [reflexivity | apply Hus; auto] | exact Hb]. }
      assert (Hno : ~ (allow = false /\ forall j' i' s, In (j', i') (ps ++ [(j, i)]) -> In s nets -> ~ linked j' i' s)).
      { intros [A B]. assert (In u nets /\ usable allow j i u) as [Hu [U|U]] by (apply Hus; rewrite Eus; left; reflexivity); [congruence|]. apply (B j i u); auto. apply Hin; auto. }
      clearbody kept. clear cands. destruct kept as [|k ks] eqn:Ek.
      + destruct I as [I1 I2 I3 I4 I5]. split; cbn.
        * intros x Hx. destruct (I1 x Hx) as (j' & i' & s & A & B). exists j', i', s. split; [apply Hin; auto | exact B].
        * intros T j' i' s Hp Hs U Hb. apply Hin in Hp as [Hp|[-> ->]]; [apply I2; assumption|]. assert (In (made j i s) []) as [] by (apply Hc; exists s; auto).
        * exact I3.
        * split; [discriminate | intros Q; exfalso; exact (Hno Q)].
        * exact I5.
      + rewrite <- Ek in *. destruct (dedupe_spec Hsort kept) as (D1 & D2 & D3). set (final := a_final st ++ dedupe argsort kept).
        assert (forall x, In x final -> exists j' i' s, In (j', i') (ps ++ [(j, i)]) /\ In s nets /\ usable allow j' i' s /\ x = made j' i' s /\ llt (ccost x) bound = true) as F1.
        { intros x Hx. unfold final in Hx. apply in_app_or in Hx as [Hx|Hx].
          - destruct (iv_sound I Hx) as (j' & i' & s & A & B). exists j', i', s. split; [apply Hin; auto | exact B].
          - apply D1, Hc in Hx as (s & Hs & U & E & B). exists j, i, s. split; [apply Hin; auto | auto]. }
        assert (a_trunc st = 0 -> forall j' i' s, In (j', i') (ps ++ [(j, i)]) -> In s nets -> usable allow j' i' s -> llt (ccost (made j' i' s)) bound = true ->
          exists y, In y final /\ ckey y = ckey (made j' i' s) /\ lle (ccost y) (ccost (made j' i' s)) = true) as F2.
        { intros T j' i' s Hp Hs U Hb. apply Hin in Hp as [Hp|[-> ->]].
          - destruct (iv_cover I T Hp Hs U Hb) as (y & Hy & Q). exists y. split; [apply in_or_app; left; exact Hy | exact Q].
          - destruct (D2 (made j i s)) as (y & Hy & Q); [apply Hc; exists s; auto|]. exists y. split; [apply in_or_app; right; exact Hy | exact Q]. }
        assert (kept <> []) as Kn by (rewrite Ek; discriminate).
        assert (inv allow nets (ps ++ [(j, i)]) (if N.ltb (match mb with Some m => N.of_nat m | None => 10000%N end) (N.of_nat (length final))
          then Acc (fst (reduce_nets argsort final mb)) (a_trunc st + snd (reduce_nets argsort final mb)) false false else Acc final (a_trunc st) false false)) as G.
        { destruct (N.ltb _ _).
          - destruct (reduce_spec Hsort final mb) as (R1 & R2 & R3). split; cbn.
            + intros x Hx. apply F1, R1, Hx.
            + intros T j' i' s Hp Hs U Hb. assert (a_trunc st = 0) as T1 by lia. assert (snd (reduce_nets argsort final mb) = 0) as T2 by lia. destruct (F2 T1 j' i' s Hp Hs U Hb) as (y & Hy & K & C). destruct (R2 T2 y Hy) as (y' & Hy' & K' & C'). exists y'. split; [exact Hy'|]. split; [rewrite K'; exact K | eapply lle_trans; eassumption].
            + discriminate.
            + split; [discriminate | intros Q; exfalso; exact (Hno Q)].
            + intros Q. rewrite (iv_trunc I Q). destruct (R3 Q) as [Z _]. rewrite Z. reflexivity.
          - split; cbn; auto; try discriminate.
            + split; [discriminate | intros Q; exfalso; exact (Hno Q)].
            + apply (iv_trunc I). }
        cbv zeta. exact G.
  Qed.
  Lemma inv_all allow nets m : inv allow nets (pairs m) (try_all argsort bound mb allow m nets).
  Proof.
    unfold try_all. assert (forall ps ps0 st, inv allow nets ps0 st -> inv allow nets (ps0 ++ ps) (fold_left (try_pair argsort bound mb allow nets) ps st)) as H.
    { induction ps as [|[j i] ps IH]; intros ps0 st I; [rewrite app_nil_r; exact I|]. cbn [fold_left]. replace (ps0 ++ (j, i) :: ps) with ((ps0 ++ [(j, i)]) ++ ps) by (rewrite <- app_assoc; reflexivity). apply IH, inv_step, I. }
    apply (H (pairs m) [] _ (inv_start allow nets)).
  Qed.
  Lemma pairs_in m j i : In (j, i) (pairs m) <-> ok_pair m (j, i).
  Proof.
    unfold pairs, ok_pair. cbn. rewrite in_flat_map. split.
    - intros (i' & Hi & H). apply in_map_iff in H as (j' & E & H). injection E as -> ->. apply in_seq in Hi. apply in_seq in H. lia.
    - intros H. exists i. split; [apply in_seq; lia|]. apply in_map_iff. exists j. split; [reflexivity | apply in_seq; lia].
  Qed.

  Definition nolinks m nets : Prop := forall j i s, ok_pair m (j, i) -> In s nets -> ~ linked j i s.
  Record stepped m nets (r : list pnet * nat) : Prop := {
    sd_sound : forall s', In s' (fst r) -> exists j i s, ok_pair m (j, i) /\ In s nets /\ (linked j i s \/ nolinks m nets) /\ s' = advance j i s /\ llt (ucost s') bound = true;
    sd_cover : snd r = 0 -> forall j i s, ok_pair m (j, i) -> In s nets -> linked j i s \/ nolinks m nets -> llt (ucost (advance j i s)) bound = true ->
      exists s', In s' (fst r) /\ p_groups s' = p_groups (advance j i s) /\ lle (ucost s') (ucost (advance j i s)) = true;
    sd_keys : NoDup (map (@p_groups L) (fst r));
    sd_trunc : mb = None -> snd r = 0
  }.
  Lemma close_stepped allow m nets : (allow = true <-> nolinks m nets) -> stepped m nets (close_step argsort (try_all argsort bound mb allow m nets)).
  Proof.
    intros Hallow. pose proof (inv_all allow nets m) as I. set (st := try_all argsort bound mb allow m nets) in *. unfold close_step.
    assert (U1 : forall j i s, usable allow j i s <-> linked j i s \/ nolinks m nets) by (intros j i s; unfold usable; tauto).
    destruct (a_none st) eqn:En.
    - destruct (iv_none I En) as [E0 T]. split; cbn.
      + intros s' [].
      + intros _ j i s Hp Hs U Hb. apply U1 in U. apply pairs_in in Hp. destruct (iv_cover I T Hp Hs U Hb) as (y & Hy & _). rewrite E0 in Hy. destruct Hy.
      + constructor.
      + auto.
    - destruct (reduce_spec Hsort (a_final st) None) as (R1 & R2 & R3). destruct (R3 eq_refl) as [R4 R5]. split; cbn [fst snd].
      + intros s' Hs'. apply in_map_iff in Hs' as (x & <- & Hx). destruct (iv_sound I (R1 x Hx)) as (j & i & s & Hp & Hs & U & -> & Hb). exists j, i, s. split; [apply pairs_in, Hp|]. split; [exact Hs|]. split; [apply U1, U|]. split; [reflexivity | exact Hb].
      + intros T j i s Hp Hs U Hb. apply U1 in U. apply pairs_in in Hp. destruct (iv_cover I T Hp Hs U Hb) as (y & Hy & K & C). destruct (R2 R4 y Hy) as (y' & Hy' & K' & C').
        exists (fst y'). split; [apply in_map, Hy'|]. split; [change (ckey y' = ckey (made j i s)); congruence | change (lle (ccost y') (ccost (made j i s)) = true); eapply lle_trans; eassumption].
      + rewrite map_map. exact R5.
      + apply (iv_trunc I).
  Qed.
  Lemma full_single_stepped m nets : stepped m nets (full_single argsort bound mb m nets).
  Proof.
    unfold full_single. pose proof (inv_all false nets m) as I. cbv zeta. destruct (a_outer (try_all argsort bound mb false m nets)) eqn:E.
    - apply (iv_outer I) in E as [_ E]. apply close_stepped. split; [intros _ j i s Hp; apply E, pairs_in, Hp | trivial].
    - apply close_stepped. split; [discriminate|]. intros H. exfalso. assert (a_outer (try_all argsort bound mb false m nets) = true) as Q; [|congruence]. apply (iv_outer I). split; [reflexivity|]. intros j i s Hp. apply H, pairs_in, Hp.
  Qed.
End Step.

(** ** the levels of the search *)
Section Levels.
  Context {L : lsf}.
  Variable argsort : list L -> list nat.
  Hypothesis Hsort : sorts argsort.
  Variable bound : L.
  Variable mb : option nat.
  Variable w : nat -> nat -> L.
  Variable n : nat.
  Hypothesis Hn : n <= 64.
  Hypothesis w_sym : forall x y, x < n -> y < n -> w x y = w y x.
  Hypothesis w_pos : forall x y, x < n -> y < n -> lle l0 (w x y) = true.
  Notation pnet := (@pnet L).
  Notation G o := (groups_after (singles n) o).
  Implicit Types (nets : list pnet) (s : pnet) (o : list (nat * nat)).

  Definition costs_of o : option L := tallies None (step_costs w n (singles n) o).
  Definition good o : Prop := steps_ok n o /\ no_outer w (singles n) o.
  Record vnet o s : Prop := {
    vn_good : good o;
    vn_orders : p_orders s = o;
    vn_rep : rep w (G o) (p_adj s);
    vn_cost : p_cost s = costs_of o;
    vn_groups : p_groups s = map tag (G o)
  }.
  Definition ole (a b : option L) : Prop := match a, b with Some x, Some y => lle x y = true | None, None => True | _, _ => False end.
  Definition under (a : option L) : Prop := match a with Some x => llt x bound = true | None => True end.
  Lemma costs_snoc o p : costs_of (o ++ [p]) = Some (tally (costs_of o) (pair_cost w n (grp (G o) (fst p)) (grp (G o) (snd p)))).
  Proof. unfold costs_of. rewrite costs_app, tallies_app. reflexivity. Qed.
  Lemma ole_tally a b x : ole a b -> lle (tally a x) (tally b x) = true.
  Proof. destruct a, b; cbn; intros H; try contradiction; [apply lse_mono, H | apply lle_refl]. Qed.
  Lemma under_prefix o p : under (costs_of (o ++ [p])) -> under (costs_of o).
  Proof.
    rewrite costs_snoc. cbn. destruct (costs_of o) as [c|]; cbn; [|trivial]. intros H. eapply lle_lt_trans; [apply lse_up | exact H].
  Qed.
  Lemma good_snoc o j i : good (o ++ [(j, i)]) <-> good o /\ ok_pair (n - length o) (j, i) /\ (joined w (G o) j i \/ only_outer w (G o)).
  Proof. unfold good. rewrite steps_ok_app, no_outer_app. cbn [fst snd]. tauto. Qed.
  Lemma vnet_linked o s j i : vnet o s -> ok_pair (n - length o) (j, i) -> (linked j i s <-> joined w (G o) j i).
  Proof.
    intros V Hp. destruct (G_ok (proj1 (vn_good V))) as (P & NE & El). unfold ok_pair in Hp. cbn in Hp. unfold linked, joined. rewrite (rep_off (vn_rep V)) by lia. reflexivity.
  Qed.
  Lemma vnet_advance o s j i : vnet o s -> ok_pair (n - length o) (j, i) -> joined w (G o) j i \/ only_outer w (G o) -> vnet (o ++ [(j, i)]) (advance j i s).
  Proof.
    intros V Hp J. destruct (G_ok (proj1 (vn_good V))) as (P & NE & El). assert (Hp' := Hp). unfold ok_pair in Hp'. cbn in Hp'. split.
    - apply good_snoc. split; [apply (vn_good V) | auto].
    - cbn. rewrite (vn_orders V). reflexivity.
    - rewrite groups_app. cbn [advance p_adj fst snd]. apply (merge_rep w_sym P (vn_rep V)); lia.
    - rewrite costs_snoc. cbn [advance p_cost fst snd]. rewrite (vn_cost V), (single_pair w_sym P (vn_rep V)) by lia. reflexivity.
    - rewrite groups_app. cbn [advance p_groups fst snd]. rewrite (vn_groups V). apply merge_tags; lia.
  Qed.

  Record level t nets : Prop := {
    lv_sound : forall s, In s nets -> exists o, length o = t /\ vnet o s
  }.
  Definition covered t nets : Prop := forall o, length o = t -> good o -> under (costs_of o) ->
    exists s, In s nets /\ p_groups s = map tag (G o) /\ ole (p_cost s) (costs_of o).

  Lemma nolinks_only t nets o s : level t nets -> nolinks (n - t) nets -> In s nets -> vnet o s -> length o = t -> only_outer w (G o).
  Proof.
    intros Lv NL Hs V El j i Hp J. destruct (G_ok (proj1 (vn_good V))) as (P & NE & Eg). rewrite Eg, El in Hp. apply (NL j i s Hp Hs). apply (vnet_linked V); [rewrite El; exact Hp | exact J].
  Qed.
  Lemma level_step t nets : level t nets -> level (S t) (fst (full_single argsort bound mb (n - t) nets)).
  Proof.
    intros Lv. pose proof (full_single_stepped Hsort bound mb (n - t) nets) as Sd. split. intros s' Hs'. destruct (sd_sound Sd Hs') as (j & i & s & Hp & Hs & U & -> & _).
    destruct (lv_sound Lv Hs) as (o & El & V). exists (o ++ [(j, i)]). split; [rewrite app_length, El; cbn; lia|]. subst t. apply vnet_advance; auto.
    destruct U as [U|U]; [left; apply (vnet_linked V Hp), U | right; apply (nolinks_only Lv U Hs V eq_refl)].
  Qed.
  Lemma covered_step t nets : level t nets -> covered t nets -> snd (full_single argsort bound mb (n - t) nets) = 0 -> covered (S t) (fst (full_single argsort bound mb (n - t) nets)).
  Proof.
    intros Lv Cv Z. pose proof (full_single_stepped Hsort bound mb (n - t) nets) as Sd. intros o' El' Hg Hu. destruct o' as [|p o _] using rev_ind; [cbn in El'; lia|]. rewrite app_length in El'. cbn in El'. assert (length o = t) as El by lia. clear El'.
    destruct p as [j i]. apply good_snoc in Hg as (Hg & Hp & J). destruct (Cv o El Hg (under_prefix Hu)) as (s & Hs & Gs & Cs). destruct (lv_sound Lv Hs) as (os & Els & V).
    destruct (G_ok (proj1 Hg)) as (P & NE & Eg). destruct (G_ok (proj1 (vn_good V))) as (Ps & NEs & Egs).
    assert (same (G os) (G o)) as SM by (apply (@tags_same n); auto; rewrite <- (vn_groups V); exact Gs).
    assert (Hp' := Hp). unfold ok_pair in Hp'. cbn in Hp'. rewrite El in Hp.
    assert (linked j i s \/ nolinks (n - t) nets) as U.
    { destruct J as [J|O]; [left; apply (vnet_linked V); [rewrite Els; exact Hp|]; apply (same_joined w SM); [lia | lia | exact J]|]. right. intros j' i' s' Hp2 Hs2 K. destruct (lv_sound Lv Hs2) as (o2 & El2 & V2). destruct (G_ok (proj1 (vn_good V2))) as (P2 & NE2 & Eg2).
      assert (only_outer w (G o2)) as O2. { apply (only_outer_all w_sym w_pos P NE P2 NE2); [lia | exact O|]. apply (phase_after w_sym w_pos); apply (vn_good V2). }
      apply (O2 j' i'); [rewrite Eg2, El2; exact Hp2|]. apply (vnet_linked V2); [rewrite El2; exact Hp2 | exact K]. }
    assert (CE : pair_cost w n (grp (G os) j) (grp (G os) i) = pair_cost w n (grp (G o) j) (grp (G o) i)) by (apply pair_cost_perm; apply SM; lia).
    assert (ucost (advance j i s) = tally (p_cost s) (pair_cost w n (grp (G o) j) (grp (G o) i))) as UC.
    { unfold ucost. cbn [advance p_cost]. rewrite (single_pair w_sym Ps (vn_rep V)) by lia. rewrite CE. reflexivity. }
    assert (lle (ucost (advance j i s)) (tally (costs_of o) (pair_cost w n (grp (G o) j) (grp (G o) i))) = true) as UL by (rewrite UC; apply ole_tally, Cs).
    rewrite costs_snoc in Hu. cbn [fst snd under] in Hu.
    destruct (sd_cover Sd Z Hp Hs U) as (s' & Hs' & G' & C'); [eapply lle_lt_trans; [exact UL | exact Hu]|].
    exists s'. split; [exact Hs'|]. split.
    - rewrite G'. cbn [advance p_groups]. rewrite (vn_groups V), groups_app. cbn [fst snd]. rewrite merge_tags by lia. apply same_tags, same_join; (exact SM || lia).
    - rewrite costs_snoc. cbn [fst snd]. destruct (sd_sound Sd Hs') as (j1 & i1 & s1 & _ & _ & _ & E1 & _). rewrite E1 in *. cbn [ole advance p_cost]. eapply lle_trans; [exact C' | exact UL].
  Qed.

  Lemma first_level adj : length adj = n -> (forall x y, x < n -> y < n -> get adj x y = w x y) -> level 0 [first_net adj] /\ covered 0 [first_net adj].
  Proof.
    intros El Hw. assert (vnet [] (first_net adj)) as V.
    { split; [split; cbn; trivial | reflexivity | apply (singles_rep El Hw) | reflexivity | unfold first_net; cbn [p_groups groups_after]; rewrite El; apply first_tags]. }
    split; [split; intros s [<-|[]]; exists []; split; [reflexivity | exact V]|].
    intros o Eo Hg _. destruct o; [|discriminate]. exists (first_net adj). split; [left; reflexivity|]. split; [apply (vn_groups V) | rewrite (vn_cost V); exact I].
  Qed.

  Lemma loop_some k : forall t nets tr nets' tr', level t nets -> full_loop argsort bound mb k (n - t) nets tr = Some (nets', tr') ->
    level (t + k) nets' /\ (tr' = 0 -> covered t nets -> covered (t + k) nets') /\ (k <> 0 -> NoDup (map (@p_groups L) nets') /\ nets' <> [] /\ forall s, In s nets' -> llt (ucost s) bound = true) /\ (mb = None -> tr = 0 -> tr' = 0) /\ tr <= tr'.
  Proof.
    induction k as [|k IH]; intros t nets tr nets' tr' Lv H; cbn [full_loop] in H.
    - injection H as <- <-. rewrite Nat.add_0_r. split; [exact Lv|]. split; [auto|]. split; [congruence|]. split; [auto | lia].
    - pose proof (full_single_stepped Hsort bound mb (n - t) nets) as Sd. pose proof (level_step Lv) as Lv'. pose proof (fun C Z => covered_step Lv C Z) as Cs.
      set (r := full_single argsort bound mb (n - t) nets) in *. destruct (fst r) as [|s0 ss] eqn:Er; [discriminate|]. rewrite <- Er in *. replace (n - t - 1) with (n - S t) in H by lia.
      destruct (IH (S t) (fst r) (tr + snd r) nets' tr' Lv' H) as (H1 & H2 & H3 & H4 & H5). replace (t + S k) with (S t + k) by lia. split; [exact H1|]. split.
      + intros Z C. apply H2; [exact Z|]. apply Cs; [exact C | lia].
      + split; [|split; [intros Q1 Q2; apply H4; [exact Q1|]; rewrite Q2, (sd_trunc Sd Q1); reflexivity | lia]].
        intros _. destruct k as [|k]; [|apply H3; congruence]. cbn [full_loop] in H. injection H as <- <-. split; [apply (sd_keys Sd)|]. split; [rewrite Er; discriminate|].
        intros s Hs. destruct (sd_sound Sd Hs) as (j & i & s1 & _ & _ & _ & _ & B). exact B.
  Qed.
  Lemma good_prefix o' : forall o, good (o ++ o') -> under (costs_of (o ++ o')) -> good o /\ under (costs_of o).
  Proof.
    induction o' as [|p o' IH]; intros o; [rewrite app_nil_r; auto|]. replace (o ++ p :: o') with ((o ++ [p]) ++ o') by (rewrite <- app_assoc; reflexivity). intros Hg Hu. destruct (IH _ Hg Hu) as [A B]. destruct p. split; [apply good_snoc in A; apply A | apply (under_prefix B)].
  Qed.
  Lemma loop_none k : mb = None -> forall t nets tr, level t nets -> covered t nets -> full_loop argsort bound mb k (n - t) nets tr = None ->
    forall o, length o = t + k -> good o -> ~ under (costs_of o).
  Proof.
    intros Hmb. induction k as [|k IH]; intros t nets tr Lv Cv H; cbn [full_loop] in H; [discriminate|].
    pose proof (full_single_stepped Hsort bound mb (n - t) nets) as Sd. pose proof (level_step Lv) as Lv'. pose proof (covered_step Lv Cv (sd_trunc Sd Hmb)) as Cv'.
    set (r := full_single argsort bound mb (n - t) nets) in *. destruct (fst r) as [|s0 ss] eqn:Er.
    - intros o El Hg Hu. rewrite <- (firstn_skipn (S t) o) in Hg, Hu. destruct (good_prefix Hg Hu) as [A B]. destruct (Cv' (firstn (S t) o)) as (s & Hs & _); auto. rewrite firstn_length. lia.
    - replace (n - t - 1) with (n - S t) in H by lia. intros o El. apply (IH (S t) _ _ Lv' Cv' H). lia.
  Qed.

  (** ** the whole search *)
  Lemma loop_end adj nets tr : 2 <= n -> length adj = n -> (forall x y, x < n -> y < n -> get adj x y = w x y) ->
    full_loop argsort bound mb (n - 1) n [first_net adj] 0 = Some (nets, tr) ->
    exists s o c, nets = [s] /\ p_orders s = o /\ p_cost s = Some c /\ good o /\ length o = n - 1 /\ costs_of o = Some c /\ llt c bound = true /\
      (tr = 0 -> forall o' c', good o' -> length o' = n - 1 -> costs_of o' = Some c' -> lle c c' = true) /\ (mb = None -> tr = 0).
  Proof.
    intros H2 El Hw H. destruct (first_level El Hw) as [Lv Cv]. replace n with (n - 0) in H at 2 by lia. destruct (loop_some Lv H) as (A1 & A2 & A3 & A4 & _). cbn [plus] in *. destruct (A3 ltac:(lia)) as (K1 & K2 & K3).
    assert (forall s, In s nets -> p_groups s = [tag (seq 0 n)]) as K.
    { intros s Hs. destruct (lv_sound A1 Hs) as (o & Eo & V). rewrite (vn_groups V). destruct (G_ok (proj1 (vn_good V))) as (P & _ & Eg). rewrite Eo in Eg. replace (n - (n - 1)) with 1 in Eg by lia.
      destruct (G o) as [|g [|g' r]]; cbn in Eg; try lia. cbn. f_equal. apply tag_perm. unfold partition in P. cbn in P. rewrite app_nil_r in P. exact P. }
    destruct nets as [|s [|s' r]]; [congruence| |].
    - destruct (lv_sound A1 (or_introl eq_refl)) as (o & Eo & V). exists s, o. assert (exists c, p_cost s = Some c) as (c & Ec).
      { rewrite (vn_cost V). destruct o as [|p o] using rev_ind; [cbn in Eo; lia|]. rewrite costs_snoc. eauto. }
      exists c. split; [reflexivity|]. split; [apply (vn_orders V)|]. split; [exact Ec|]. split; [apply (vn_good V)|]. split; [exact Eo|]. split; [rewrite <- (vn_cost V); exact Ec|].
      assert (llt c bound = true) as B by (specialize (K3 s (or_introl eq_refl)); unfold ucost in K3; rewrite Ec in K3; exact K3). split; [exact B|]. split; [|auto].
      intros Z o' c' Hg Eo' Ec'. destruct (llt c' bound) eqn:Q.
      + destruct (A2 Z Cv o' Eo' Hg) as (s1 & [<-|[]] & _ & C); [rewrite Ec'; exact Q|]. rewrite Ec, Ec' in C. exact C.
      + apply llt_nle in Q. eapply lle_trans; [apply llt_le, B | exact Q].
    - exfalso. cbn in K1. inversion K1 as [|? ? N1 N2]; subst. apply N1. left. rewrite (K s'), (K s); cbn; auto.
  Qed.
  Lemma loop_end_none adj : mb = None -> 2 <= n -> length adj = n -> (forall x y, x < n -> y < n -> get adj x y = w x y) ->
    full_loop argsort bound mb (n - 1) n [first_net adj] 0 = None ->
    forall o c, good o -> length o = n - 1 -> costs_of o = Some c -> lle bound c = true.
  Proof.
    intros Hmb H2 El Hw H o c Hg Eo Ec. destruct (first_level El Hw) as [Lv Cv]. replace n with (n - 0) in H at 2 by lia. pose proof (loop_none Hmb Lv Cv H Eo Hg) as Q. rewrite Ec in Q. cbn in Q. apply llt_nle. destruct (llt c bound); [exfalso; apply Q; reflexivity | reflexivity].
  Qed.
End Levels.
