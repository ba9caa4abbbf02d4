(** * WaveMain: apply_op and apply_circuit *)
From Coq Require Import Permutation List Lia.
From Verif Require Import Prelude Algebra Tensor TensorFacts Einsum EinsumFacts NetworkFacts Graph GraphBase GraphConnect GraphContract GraphOps GraphValue GraphLaws GraphJoin GraphTrace GraphQuery GraphQueryFacts GraphBetween GraphOuter GraphCopy GraphCopyFacts GraphDensity GraphTotal GraphTotal2 GraphSched PathFacts Quantum QuantumSpec QuantumFacts QuantumJoin QuantumMake Stitch SatFacts Wave WaveSpec WaveFacts WaveInv.
Import ListNotations.
Set Implicit Arguments.
Unset Strict Implicit.

Section WM.
  Context {R : cjr}.
  Notation st := (@st R).
  Notation M := (@M R).
  Implicit Types (s : st) (e f g : eid) (n m : nid).
  Variable iter : list nat -> list nat.
  Hypothesis iter_perm : forall l, Permutation (iter l) l.
  Notation "x *! y" := (rmul x y) (at level 40, left associativity).
  Notation cnt := (count_occ Nat.eq_dec).
  Add Ring Rwm : (rsr R).

  Lemma reduce_ok s0 S0 : wf s0 -> (forall pre m post, S0 = pre ++ m :: post -> pre <> [] -> exists h e, In h pre /\ between s0 h m e) ->
    forall rest pre acc s, S0 = pre ++ rest -> pre <> [] -> stands s0 S0 s (acc :: rest) -> (forall m, In m (acc :: rest) -> plain s m) ->
      (forall m, In m rest -> s_nodes s m = s_nodes s0 m) -> NoDup S0 ->
      exists s' N, reduce_between iter acc rest s = (s', Some N) /\ stands s0 S0 s' [N] /\ plain s' N.
  Proof.
    intros W0 Hlink. induction rest as [|m rest IH]; intros pre acc s E Hp H Hpl Hsame ND0; cbn [reduce_between].
    { exists s, acc. split; [reflexivity|]. split; [exact H|]. apply Hpl. left; reflexivity. }
    pose proof (sd_wf H) as W. destruct (sd_net H) as [ND Hex].
    assert (acc <> m) as Hne by (intros ->; apply NoDup_cons_iff in ND; apply ND; left; reflexivity).
    destruct (Hlink pre m rest E Hp) as (h & e & Hh & p & q & Hpq & Hp1 & Hq1 & Sp & Sq).
    assert (forall z, slot s0 z = Some e -> z = p \/ z = q) as Only.
    { intros z Hz. assert (NoDup [p; q]) as Npq by (constructor; [intros [K|[]]; congruence|constructor; [intros []|constructor]]).
      destruct (slot_eqb_spec z p) as [|N1]; [auto|]. destruct (slot_eqb_spec z q) as [|N2]; [auto|]. exfalso.
      pose proof (@cnt_le_2 R s0 (nodup Nat.eq_dec [fst z; fst p; fst q]) e W0 (NoDup_nodup _ _)) as K. rewrite <- occ_length in K.
      assert (incl [z; p; q] (occ s0 (nodup Nat.eq_dec [fst z; fst p; fst q]) e)) as Q.
      { intros x Hx. apply occ_slot. rewrite nodup_In. cbn in Hx. destruct Hx as [<-|[<-|[<-|[]]]]; split; cbn; auto. }
      apply NoDup_incl_length in Q; [cbn [length] in Q; lia|]. constructor; [cbn; intros [K1|[K1|[]]]; congruence|exact Npq]. }
    assert (~ In m pre) as Hmp by (rewrite E in ND0; apply NoDup_app_iff in ND0; intros K; apply (proj2 (proj2 ND0) m K); left; reflexivity).
    assert (slot s q = Some e) as Sq' by (unfold slot in *; rewrite Hq1 in *; rewrite (Hsame m (or_introl eq_refl)); exact Sq).
    assert (on s acc e) as Ho.
    { assert (cnt (net_labels (net_of s (acc :: m :: rest))) e <> 1) as K.
      { rewrite (sd_cnt H). rewrite <- occ_length.
        assert (incl [p; q] (occ s0 S0 e)) as Q.
        { intros x [<-|[<-|[]]]; apply occ_slot; (split; [rewrite E; apply in_or_app|assumption]); [left; congruence|right; left; congruence]. }
        apply NoDup_incl_length in Q; [cbn [length] in Q; lia|]. constructor; [intros [K|[]]; congruence|constructor; [intros []|constructor]]. }
      rewrite <- occ_length in K. 
      assert (incl [q] (occ s (acc :: m :: rest) e)) as Q by (intros x [<-|[]]; apply occ_slot; split; [right; left; congruence|exact Sq']).
      assert (forall x y : nat * nat, {x = y} + {x <> y}) as Dec by (intros x y; destruct (slot_eqb_spec x y); auto).
      destruct (list_eq_dec Dec (occ s (acc :: m :: rest) e) [q]) as [K2|K2]; [rewrite K2 in K; exfalso; apply K; reflexivity|].
      assert (exists z, In z (occ s (acc :: m :: rest) e) /\ z <> q) as (z & Hz & Hzq).
      { assert (NoDup (occ s (acc :: m :: rest) e)) as N by (apply occ_NoDup; exact ND).
        revert K2 Q N. generalize (occ s (acc :: m :: rest) e). clear. intros [|x [|y l]] K Q N.
        - destruct (Q q (or_introl eq_refl)).
        - destruct (Q q (or_introl eq_refl)) as [->|[]]. congruence.
        - destruct (slot_eqb_spec x q) as [->|]; [exists y|exists x; split; [left; reflexivity|assumption]]. split; [right; left; reflexivity|]. intros ->. apply NoDup_cons_iff in N. apply N. left; reflexivity. }
      apply occ_slot in Hz. destruct Hz as [Hz1 Hz2]. destruct Hz1 as [Hz1|Hz1]; [exists (snd z); destruct z; cbn [fst snd] in *; congruence|].
      exfalso. assert (slot s0 z = Some e) as Hz0 by (unfold slot in *; rewrite <- (Hsame (fst z) Hz1); exact Hz2).
      destruct (Only z Hz0) as [->| ->]; [|congruence]. rewrite E in ND0. apply NoDup_app_iff in ND0. apply (proj2 (proj2 ND0) (fst p)); [congruence|exact Hz1]. }
    destruct (is_node_Some (Hex acc (or_introl eq_refl))) as (d1 & E1). destruct (is_node_Some (Hex m (or_intror (or_introl eq_refl)))) as (d2 & E2).
    assert (In e (shared_list s acc m)) as Hsh.
    { rewrite (shared_spec m e E1). split; [apply (on_In e E1); exact Ho|]. destruct (on_edge W Ho) as (ed & Ed & _). exists ed. split; [exact Ed|].
      apply (@joins_between _ s acc e ed acc m W Ho Ed). destruct Ho as (k & Hk). exists (acc, k), q. split; [intros K; apply Hne; rewrite <- Hq1, <- K; reflexivity|]. auto. }
    destruct (between_ok iter_perm W E1 E2 (sd_name H (or_introl eq_refl)) (sd_name H (or_intror (or_introl eq_refl))) (ao := false) (order := []) (names := None)) as (s1 & N & EB).
    { intros K. rewrite K in Hsh. destruct Hsh. }
    { left; reflexivity. }
    { exact I. }
    destruct (between_step iter_perm W Hne EB) as (C & _).
    unfold bind. rewrite EB.
    apply (IH (pre ++ [m]) N s1).
    - rewrite E, <- app_assoc. reflexivity.
    - intros K. apply app_eq_nil in K. destruct K; discriminate.
    - apply (stands_step H C); [apply Permutation_refl|]. intros x Hx. apply (between_nameable W Hx EB).
    - intros x [<-|Hx]; [apply (pair_plain iter_perm W Hne (Hpl acc (or_introl eq_refl)) (Hpl m (or_intror (or_introl eq_refl))) EB)|].
      unfold plain, edges_at0. rewrite (ct_others C); [apply Hpl; right; right; exact Hx| |].
      + change (acc :: m :: rest) with ([acc; m] ++ rest) in ND. apply NoDup_app_iff in ND. intros K. apply (proj2 (proj2 ND) x K Hx).
      + intros ->. apply (Hex N); [right; right; exact Hx|apply (ct_new C)].
    - intros x Hx. rewrite (ct_others C); [apply Hsame; right; exact Hx| |].
      + change (acc :: m :: rest) with ([acc; m] ++ rest) in ND. apply NoDup_app_iff in ND. intros K. apply (proj2 (proj2 ND) x K Hx).
      + intros ->. apply (Hex N); [right; right; exact Hx|apply (ct_new C)].
    - exact ND0.
  Qed.

  Lemma winv_boundary s ns state (P : tensor R) e : winv s ns state P -> In e state <-> boundary s ns e.
  Proof.
    intros I. pose proof (wi_wf I) as W. rewrite (wi_loose I e). split.
    - intros (p & Hp & Hs & He). exists (fst p). split; [exact Hp|]. left. exists (snd p). split; [destruct p; exact Hs|].
      intros q Hq. assert (dangles s e) as D by (exists p; auto). rewrite (dangles_one W D Hq Hs). destruct p; reflexivity.
    - intros (n & Hn & [Ho|(m & Hm & (p & q & _ & Hp & Hq & Sp & Sq))]).
      + destruct Ho as (k & Hk & Hu). exists (n, k). split; [exact Hn|]. split; [exact Hk|].
        assert (on s n e) as Ho by (exists k; exact Hk). destruct (on_edge W Ho) as (ed & Ed & Dd).
        destruct (kinds W Ho Ed) as [(E2 & _)|(m & a2 & _ & _ & _ & _ & K & _)]; [|exfalso; apply (K n); exists k; auto].
        pose proof (dangling_slot W Hk Ed E2) as Q. destruct ed as [x1 x2 x3 x4]. cbn in *. rewrite Ed. congruence.
      + exfalso. apply Hm. apply (wi_closed I Hn (e := e)); [exists (snd p); destruct p|exists (snd q); destruct q]; cbn [fst snd] in *; congruence.
  Qed.

  Lemma winv_stands s ns state (P : tensor R) : winv s ns state P -> stands s ns s ns.
  Proof. intros I. apply stands_refl; [apply (wi_wf I)|apply (wi_live I)|apply (wi_name I)]. Qed.
  Lemma winv_plain s ns state (P : tensor R) m : winv s ns state P -> In m ns -> plain s m.
  Proof. intros I Hm. apply plain_spec; [apply (wi_live I), Hm|]. intros e. apply (wi_plain I Hm). Qed.

  Lemma winv_tensor s ns state (P : tensor R) s' N order ignore nd : winv s ns state P -> contracted_to s ns s' N order ignore -> s_nodes s' N = Some nd -> n_edges nd = state -> teq (n_t nd) P.
  Proof.
    intros I C E Hst. destruct (co_node C) as (nd' & E' & _ & _ & _ & Hs & Hv). rewrite E in E'. injection E' as <-. rewrite Hst in *.
    assert (shape (n_t nd) = shape P) as Hsh by (rewrite Hs; apply (wi_dims I)).
    split; [exact Hsh|]. intros ix Hix. destruct (@asg_of state ix (wi_nodup I)) as (a & Ha); [rewrite (valid_length Hix), Hs, map_length; reflexivity|].
    rewrite <- Ha at 1. rewrite Hv.
    - rewrite (nodup_fixed_point Nat.eq_dec (proj1 (wi_live I))), (wi_val I), Ha. reflexivity.
    - intros e He. apply (winv_boundary e I) in He. rewrite <- Ha, Hs in Hix. clear - Hix He. induction state as [|x l IH]; [destruct He|]. inversion Hix; subst. destruct He as [<-|He]; auto.
  Qed.

  Lemma rank_act ts (op P : tensor R) : rank (act ts op P) = rank P.
  Proof. unfold rank, act. cbn [shape]. apply over_length. Qed.
  Lemma window_seq N n w : window N n w false = seq n w.
  Proof.
    unfold window. assert (forall d b, map (fun m => n + m) (seq b d) = seq (n + b) d) as Q by (induction d as [|d IH]; intros b; cbn; [reflexivity|]; rewrite IH; do 2 f_equal; lia).
    rewrite Q, Nat.add_0_r. reflexivity.
  Qed.

  Lemma run_app (gs gs' : list (nat * tensor R)) : forall psi, run (gs ++ gs') psi = run gs' (run gs psi).
  Proof. induction gs as [|g gs IH]; intros psi; cbn; auto. Qed.
  Lemma runs_ok_app (gs gs' : list (nat * tensor R)) : forall psi, runs_ok (gs ++ gs') psi <-> runs_ok gs psi /\ runs_ok gs' (run gs psi).
  Proof. induction gs as [|g gs IH]; intros psi; cbn; [tauto|]. rewrite IH. tauto. Qed.
  Lemma rank_run (gs : list (nat * tensor R)) : forall psi, rank (run gs psi) = rank psi.
  Proof. induction gs as [|g gs IH]; intros psi; cbn; [reflexivity|]. rewrite IH. apply rank_act. Qed.

  Definition placed_from (gates : list (option (tensor R))) (sites : list nat) : list (nat * tensor R) :=
    flat_map (fun n => match nth n gates None with Some g => [(n, g)] | None => [] end) sites.

  Lemma layer_ok gates N : apart N gates -> forall k n0 skip s ns state P, n0 + k = N -> (forall i, n0 <= i < n0 + skip -> i < N -> nth i gates None = None) ->
    winv s ns state P -> ns <> [] -> runs_ok (placed_from gates (seq n0 k)) P ->
    exists s' new state', layer_loop gates (seq n0 k) skip state ns s = (s', Some (state', ns ++ new)) /\ winv s' (ns ++ new) state' (run (placed_from gates (seq n0 k)) P).
  Proof.
    intros Hap. induction k as [|k IH]; intros n0 skip s ns state P HN Hsk I Hns Hok; cbn [seq layer_loop placed_from flat_map] in *.
    { exists s, [], state. rewrite app_nil_r. split; [reflexivity|exact I]. }
    fold (placed_from gates (seq (S n0) k)) in *.
    destruct (Nat.ltb_spec 0 skip) as [Hs|Hs].
    - rewrite (Hsk n0) in * by lia. cbn [app] in *. apply IH; auto; [lia|]. intros i Hi. apply Hsk. lia.
    - destruct (nth n0 gates None) as [g|] eqn:Eg; cbn [app run runs_ok] in *.
      + destruct Hok as [Ht Hok]. unfold sites_of in Ht, Hok |- *. cbn [fst snd] in *. rewrite <- (window_seq (rank P) n0 (rank g / 2)) in Ht.
        destruct (winv_step I Hns Ht) as (s1 & n & state1 & E & I1). rewrite window_seq in I1. unfold bind. rewrite E. cbn [fst snd].
        destruct (IH (S n0) (rank g / 2 - 1) s1 (ns ++ [n]) state1 (act (seq n0 (rank g / 2)) g P) ltac:(lia)) as (s' & new & state' & E' & I'); auto.
        * intros i Hi HiN. destruct (nth i gates None) as [g'|] eqn:Eg'; [|reflexivity]. exfalso. pose proof (Hap n0 i g g' Eg Eg' ltac:(lia)). lia.
        * intros K. apply app_eq_nil in K. destruct K; discriminate.
        * exists s', (n :: new), state'. rewrite <- app_assoc in E', I'. cbn [app] in E', I'. split; [exact E'|exact I'].
      + apply IH; auto; [lia|]. intros i Hi. lia.
  Qed.

  Lemma layers_ok N layers : (forall gates, In gates layers -> apart N gates) -> forall s ns state P, rank P = N ->
    winv s ns state P -> ns <> [] -> runs_ok (flat_map (placed N) layers) P ->
    exists s' new state', layers_loop N layers state ns s = (s', Some (state', ns ++ new)) /\ winv s' (ns ++ new) state' (run (flat_map (placed N) layers) P).
  Proof.
    induction layers as [|gates layers IH]; intros Hap s ns state P HN I Hns Hok; cbn [layers_loop flat_map] in *.
    { exists s, [], state. rewrite app_nil_r. split; [reflexivity|exact I]. }
    apply runs_ok_app in Hok. destruct Hok as [Hok1 Hok2].
    destruct (@layer_ok gates N (Hap gates (or_introl eq_refl)) N 0 0 s ns state P ltac:(lia)) as (s1 & new1 & state1 & E1 & I1); auto; [intros; lia|].
    unfold bind. rewrite E1. cbn [fst snd]. change (placed_from gates (seq 0 N)) with (placed N gates) in I1.
    destruct (IH (fun x Hx => Hap x (or_intror Hx)) s1 (ns ++ new1) state1 (run (placed N gates) P)) as (s' & new & state' & E' & I'); auto.
    - rewrite rank_run. exact HN.
    - intros K. apply app_eq_nil in K. destruct K; contradiction.
    - exists s', (new1 ++ new), state'. rewrite <- app_assoc in E', I'. rewrite run_app. auto.
  Qed.

  Theorem apply_circuit_ok s psi layers : wf s -> (forall gates, In gates layers -> apart (rank psi) gates) -> runs_ok (flat_map (placed (rank psi)) layers) psi ->
    exists s' T, apply_circuit iter psi layers s = (s', Some T) /\ wf s' /\ teq T (run (flat_map (placed (rank psi)) layers) psi).
  Proof.
    intros W Hap Hok. destruct (winv_start psi W) as (s1 & n & state & E1 & E2 & I).
    destruct (layers_ok Hap eq_refl I ltac:(discriminate) Hok) as (s2 & new & state' & E3 & I2).
    unfold apply_circuit, bind. rewrite E1, E2, E3. cbn [fst snd app].
    destruct (@reduce_ok s2 ([n] ++ new) (wi_wf I2) (wi_link I2) new [n] n s2 eq_refl ltac:(discriminate)) as (s3 & N & E4 & H & HP).
    { apply (winv_stands I2). }
    { intros m Hm. apply (winv_plain I2 Hm). }
    { reflexivity. }
    { apply (proj1 (wi_live I2)). }
    rewrite E4.
    assert (nodup Nat.eq_dec ([n] ++ new) = [n] ++ new) as Hnd by (apply nodup_fixed_point, (wi_live I2)).
    rewrite <- Hnd in H.
    destruct (@finish_ok R s2 ([n] ++ new) s3 N (Some state') false state' (wi_wf I2) H HP) as (s4 & E5 & C).
    { intros _. split; [apply (wi_nodup I2)|]. split; [intros e; apply (winv_boundary e I2)|]. intros o' Q. injection Q as <-. reflexivity. }
    unfold bind in E5. destruct (reorder_edges N state' s3) as [s4' [u|]]; [|discriminate]. injection E5 as ->.
    destruct (co_node C) as (nd & EN & _ & _ & Hord & _).
    unfold get_node. rewrite EN. exists s4, (n_t nd). split; [reflexivity|]. split; [apply (co_wf C)|].
    apply (winv_tensor I2 C EN). apply (Hord state' eq_refl eq_refl).
  Qed.

  (** ** apply_op *)
  Lemma winv_pair s a b state (P : tensor R) : winv s [a; b] state P -> exists d1 d2, s_nodes s a = Some d1 /\ s_nodes s b = Some d2 /\ a <> b /\ shared_list s b a <> [] /\ NoDup (rest_of s b a) /\ forall e, In e (rest_of s b a) <-> In e state.
  Proof.
    intros I. pose proof (wi_wf I) as W. destruct (wi_live I) as [ND Hex].
    destruct (is_node_Some (Hex a (or_introl eq_refl))) as (d1 & E1). destruct (is_node_Some (Hex b (or_intror (or_introl eq_refl)))) as (d2 & E2).
    assert (a <> b) as Hne by (intros ->; apply NoDup_cons_iff in ND; apply ND; left; reflexivity).
    assert (forall x, In x (shared_list s b a) <-> on s b x /\ on s a x) as Sh.
    { intros x. rewrite (shared_spec a x E2), <- (on_In x E2). split.
      - intros (Ho & ed & Ed & K). split; [exact Ho|]. apply (@joins_between _ s b x ed b a W Ho Ed) in K. destruct K as (p & q & _ & Hp & Hq & Sp & Sq). exists (snd q). destruct q; cbn [fst snd] in *. congruence.
      - intros [Ho Ho']. split; [exact Ho|]. destruct (on_edge W Ho) as (ed & Ed & _). exists ed. split; [exact Ed|]. apply (@joins_between _ s b x ed b a W Ho Ed).
        destruct Ho as (k & Hk), Ho' as (j & Hj). exists (b, k), (a, j). split; [congruence|]. auto. }
    exists d1, d2. split; [exact E1|]. split; [exact E2|]. split; [exact Hne|].
    assert (rest_of s b a = kept_of (shared_list s b a) (n_edges d2) ++ kept_of (shared_list s b a) (n_edges d1)) as Hr.
    { unfold rest_of. rewrite nodup_fixed_point by (constructor; [intros [K|[]]; congruence|constructor; [intros []|constructor]]). cbn [flat_map]. rewrite E1, E2, app_nil_r. reflexivity. }
    assert (forall e, In e (rest_of s b a) <-> (on s b e \/ on s a e) /\ ~ (on s b e /\ on s a e)) as Hin.
    { intros e. rewrite Hr, in_app_iff. unfold kept_of. rewrite !filter_In, <- (on_In e E1), <- (on_In e E2), !negb_true_iff, <- (Sh e).
      assert (mem e (shared_list s b a) = false <-> ~ In e (shared_list s b a)) as -> by apply mem_nIn. tauto. }
    split; [|split].
    - destruct (@wi_link _ _ _ _ _ I [a] b [] eq_refl ltac:(discriminate)) as (h & e & [<-|[]] & (p & q & _ & Hp & Hq & Sp & Sq)).
      intros K. assert (In e (shared_list s b a)) as Q; [|rewrite K in Q; destruct Q]. apply Sh. split; [exists (snd q); destruct q|exists (snd p); destruct p]; cbn [fst snd] in *; congruence.
    - rewrite Hr. apply NoDup_app_iff. pose proof (winv_plain I (or_introl eq_refl)) as P1. pose proof (winv_plain I (or_intror (or_introl eq_refl) : In b [a; b])) as P2.
      unfold plain, edges_at0 in P1, P2. rewrite E1 in P1. rewrite E2 in P2. split; [apply NoDup_kept; exact P2|]. split; [apply NoDup_kept; exact P1|].
      intros e K1 K2. unfold kept_of in K1, K2. apply filter_In in K1. apply filter_In in K2. destruct K1 as [K1 Kn]. destruct K2 as [K2 _].
      apply negb_true_iff, mem_nIn in Kn. apply Kn, Sh. split; [apply (on_In e E2); exact K1|apply (on_In e E1); exact K2].
    - intros e. rewrite Hin, (winv_boundary e I). split.
      + intros [Ho Hn]. assert (exists n, In n [a; b] /\ on s n e) as (n & Hn1 & Hn2) by (destruct Ho as [Ho|Ho]; [exists b|exists a]; cbn; auto).
        exists n. split; [exact Hn1|]. left. destruct (on_edge W Hn2) as (ed & Ed & _). destruct (kinds W Hn2 Ed) as [(_ & _ & K & _)|(m & a2 & _ & Kb & Knm & Kx & _)]; [exact K|]. exfalso.
        assert (In (e_n1 ed) [a; b] /\ In m [a; b]) as [M1 M2].
        { destruct Kb as (p & q & _ & Hp & Hq & Sp & Sq). split; apply (wi_closed I Hn1 Hn2); [exists (snd p); destruct p|exists (snd q); destruct q]; cbn [fst snd] in *; congruence. }
        assert (e_n1 ed <> m) as Hd by (intros K; rewrite K in Kb; apply (wi_plain I M2 Kb)).
        apply Hn. destruct Kb as (p & q & _ & Hp & Hq & Sp & Sq).
        assert (on s (e_n1 ed) e) as O1 by (exists (snd p); destruct p; cbn [fst snd] in *; congruence). assert (on s m e) as O2 by (exists (snd q); destruct q; cbn [fst snd] in *; congruence).
        cbn in M1, M2. destruct M1 as [M1|[M1|[]]], M2 as [M2|[M2|[]]]; rewrite <- M1 in O1; rewrite <- M2 in O2; try (split; assumption); congruence.
      + intros (n & Hn & [Ho|(m & Hm & (p & q & _ & Hp & Hq & Sp & Sq))]).
        * destruct Ho as (k & Hk & Hu). split; [destruct Hn as [<-|[<-|[]]]; [right|left]; exists k; exact Hk|]. intros [(i & Hi) (j & Hj)]. apply Hu in Hi. apply Hu in Hj. congruence.
        * exfalso. apply Hm. apply (wi_closed I Hn (e := e)); [exists (snd p); destruct p|exists (snd q); destruct q]; cbn [fst snd] in *; congruence.
  Qed.

  Theorem apply_op_ok s psi op n1 pbc : wf s -> takes (window (rank psi) n1 (rank op / 2) pbc) op psi ->
    exists s' T, apply_op iter psi op n1 pbc s = (s', Some T) /\ wf s' /\ teq T (act (window (rank psi) n1 (rank op / 2) pbc) op psi).
  Proof.
    intros W Ht. destruct (winv_start psi W) as (s1 & n & state & E1 & E2 & I).
    destruct (winv_step I ltac:(discriminate) Ht) as (s2 & m & state' & E3 & I2). cbn [app] in I2.
    unfold apply_op, bind. rewrite E1, E2, E3. cbn [fst snd].
    destruct (winv_pair I2) as (d1 & d2 & D1 & D2 & Hne & Hsh & NDr & Hr).
    destruct (between_ok iter_perm (wi_wf I2) D2 D1 (wi_name I2 (or_intror (or_introl eq_refl))) (wi_name I2 (or_introl eq_refl)) (ao := false) (order := state') (names := None)) as (s3 & N & EB).
    { intros K. contradiction. }
    { right. split; [apply (wi_nodup I2)|]. apply NoDup_Permutation; [apply (wi_nodup I2)|exact NDr|]. intros e. symmetry. apply Hr. }
    { exact Logic.I. }
    rewrite EB. destruct (between_step iter_perm (wi_wf I2) (not_eq_sym Hne) EB) as (C & x1 & x2 & nd & _ & _ & EN & Pm & Hnil & Hcons & _).
    assert (n_edges nd = state') as Hed.
    { apply Hcons. intros K. destruct Ht as (_ & Hlt & Hw & _). assert (length state' = rank psi) as Ls by (rewrite <- (rank_act (window (rank psi) n1 (rank op / 2) pbc) op psi); unfold rank at 1; rewrite <- (wi_dims I2), map_length; reflexivity).
      rewrite K in Ls. cbn in Ls. destruct (window (rank psi) n1 (rank op / 2) pbc) as [|t l]; [cbn in Hw; lia|]. specialize (Hlt t (or_introl eq_refl)). lia. }
    assert (stands s2 [n; m] s3 [N]) as H.
    { apply (stands_step (winv_stands I2) C); [rewrite app_nil_r; apply perm_swap|]. intros x Hx. apply (between_nameable (wi_wf I2) Hx EB). }
    assert (nodup Nat.eq_dec [n; m] = [n; m]) as Hnd by (apply nodup_fixed_point, (wi_live I2)). rewrite <- Hnd in H.
    destruct (@finish_ok R s2 [n; m] s3 N None true [] (wi_wf I2) H) as (s4 & E5 & Ct).
    { unfold plain, edges_at0. rewrite EN, Hed. apply (wi_nodup I2). }
    { discriminate. }
    unfold bind, ret in E5. injection E5 as <-.
    unfold get_node. rewrite EN. exists s3, (n_t nd). split; [reflexivity|]. split; [apply (co_wf Ct)|].
    apply (winv_tensor I2 Ct EN Hed).
  Qed.

  (** ** overlapping gates *)
  Lemma covered gates n' (g' : tensor R) : nth n' gates None = Some g' -> forall k n0 skip state nodes s, n0 <= n' < n0 + k -> n' < n0 + skip -> snd (layer_loop gates (seq n0 k) skip state nodes s) = None.
  Proof.
    intros Hg. induction k as [|k IH]; intros n0 skip state nodes s H1 H2; [lia|]. cbn [seq layer_loop].
    destruct (Nat.ltb_spec 0 skip) as [_|K]; [|lia]. destruct (nth n0 gates None) as [g|] eqn:E; [reflexivity|].
    apply IH; [|lia]. assert (n0 <> n') by congruence. lia.
  Qed.
  Lemma overlap_layer gates n n' (g g' : tensor R) N : nth n gates None = Some g -> nth n' gates None = Some g' -> n < n' < N -> n' < n + rank g / 2 ->
    forall k n0 skip state nodes s, n0 + k = N -> n0 <= n -> snd (layer_loop gates (seq n0 k) skip state nodes s) = None.
  Proof.
    intros Hg Hg' Hn Hc. induction k as [|k IH]; intros n0 skip state nodes s H1 H2; [lia|]. cbn [seq layer_loop].
    assert (n0 = n \/ S n0 <= n) as [->|Hlt] by lia.
    - rewrite Hg. destruct (0 <? skip); [reflexivity|]. unfold bind. destruct (apply_op_network state g n false s) as [s1 [r|]]; [|reflexivity].
      apply (covered Hg'); lia.
    - destruct (0 <? skip).
      + destruct (nth n0 gates None); [reflexivity|]. apply IH; lia.
      + destruct (nth n0 gates None) as [g0|]; [|apply IH; lia]. unfold bind. destruct (apply_op_network state g0 n0 false s) as [s1 [r|]]; [|reflexivity]. apply IH; lia.
  Qed.
  Theorem overlap_fails s psi layers gates : In gates layers -> ~ apart (rank psi) gates -> snd (apply_circuit iter psi layers s) = None.
  Proof.
    intros Hin Hna.
    assert (exists n n' (g g' : tensor R), nth n gates None = Some g /\ nth n' gates None = Some g' /\ n < n' < rank psi /\ n' < n + rank g / 2) as (n & n' & g & g' & Hg & Hg' & Hn & Hc).
    { assert (forall A (P : A -> bool) l, existsb P l = false -> forall x, In x l -> P x = false) as Ex.
      { intros A Pd l H x Hx. destruct (Pd x) eqn:E; [|reflexivity]. assert (existsb Pd l = true) by (apply existsb_exists; eauto). congruence. }
      set (bad := fun p : nat * nat => match nth (fst p) gates None, nth (snd p) gates None with Some g, Some _ => (fst p <? snd p) && (snd p <? fst p + rank g / 2) | _, _ => false end).
      destruct (existsb bad (list_prod (seq 0 (rank psi)) (seq 0 (rank psi)))) eqn:E.
      - apply existsb_exists in E. destruct E as ([n n'] & Hp & Hb). apply in_prod_iff in Hp. destruct Hp as [P1 P2]. apply in_seq in P1. apply in_seq in P2. unfold bad in Hb. cbn [fst snd] in Hb.
        destruct (nth n gates None) as [g|] eqn:G1; [|discriminate]. destruct (nth n' gates None) as [g'|] eqn:G2; [|discriminate]. apply andb_true_iff in Hb. destruct Hb as [B1 B2]. apply Nat.ltb_lt in B1. apply Nat.ltb_lt in B2.
        exists n, n', g, g'. repeat split; auto; lia.
      - exfalso. apply Hna. intros n n' g g' G1 G2 Hn. destruct (Nat.le_gt_cases (n + rank g / 2) n') as [|K]; [assumption|]. exfalso.
        pose proof (Ex _ bad _ E (n, n')) as Q. rewrite in_prod_iff, !in_seq in Q. specialize (Q ltac:(lia)). unfold bad in Q. cbn [fst snd] in Q. rewrite G1, G2 in Q.
        apply andb_false_iff in Q. destruct Q as [Q|Q]; apply Nat.ltb_ge in Q; lia. }
    unfold apply_circuit, bind. destruct (new_node psi None s) as [s1 [x|]]; [|reflexivity]. destruct (node_edges x s1) as [s2 [state|]]; [|reflexivity].
    assert (forall st0 nodes s, snd (layers_loop (rank psi) layers st0 nodes s) = None) as K.
    { revert Hin. clear - Hg Hg' Hn Hc. induction layers as [|l ls IH]; intros Hin st0 nodes s; [destruct Hin|]. cbn [layers_loop]. unfold bind.
      destruct (layer_loop l (seq 0 (rank psi)) 0 st0 nodes s) as [s1 r] eqn:E. destruct Hin as [->|Hin].
      - pose proof (@overlap_layer gates n n' g g' (rank psi) Hg Hg' Hn Hc (rank psi) 0 0 st0 nodes s eq_refl ltac:(lia)) as Q. rewrite E in Q. cbn in Q. rewrite Q. reflexivity.
      - destruct r as [r|]; [|reflexivity]. apply IH. exact Hin. }
    specialize (K state [x] s2). destruct (layers_loop (rank psi) layers state [x] s2) as [s3 [r|]]; [discriminate K|reflexivity].
  Qed.
End WM.
