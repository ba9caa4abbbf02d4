(** * SatMain: sat_tn and sat_count_tn *)
From Coq Require Import Permutation List Lia ZArith Bool.
From Verif Require Import Prelude Algebra Tensor TensorFacts Einsum EinsumFacts NetworkFacts Graph GraphBase GraphConnect GraphContract GraphOps GraphValue GraphLaws GraphJoin GraphQuery GraphQueryFacts GraphCopy GraphCopyFacts GraphDensity CopyTensor Quantum QuantumSpec QuantumFacts QuantumJoin QuantumMake Stitch FftStitch FftSpec FftFacts Sat SatSpec SatFacts.
Import ListNotations.
Set Implicit Arguments.
Unset Strict Implicit.

Section SM.
  Context {R : cjr}.
  Notation st := (@st R).
  Implicit Types (s : st).
  Notation "x +! y" := (radd x y) (at level 50, left associativity).
  Notation "x *! y" := (rmul x y) (at level 40, left associativity).
  Add Ring Rsm : (rsr R).

  Definition pos (x : Z) : nat := Z.abs_nat x - 1.
  (** the holders of the ends number k of two moments are joined *)
  Definition tracks s s' (l l' : list eid) : Prop :=
    forall k h, k < length l -> on s h (nth k l 0) -> exists h', on s' h' (nth k l' 0) /\ connected s' h h'.

  Lemma tracks_trans s s1 s2 l l1 l2 : length l1 = length l -> (forall m m', connected s1 m m' -> connected s2 m m') ->
    tracks s s1 l l1 -> tracks s1 s2 l1 l2 -> tracks s s2 l l2.
  Proof.
    intros E C T1 T2 k h Hk Hh. destruct (T1 k h Hk Hh) as (h1 & A1 & A2). destruct (T2 k h1 ltac:(rewrite E; exact Hk) A1) as (h2 & B1 & B2).
    exists h2. split; [exact B1|]. apply (connected_trans (C _ _ A2) B2).
  Qed.

  Section Base.
    Variables (s0 : st) (ns0 : list nid).
    Hypothesis W0 : wf s0.

    Lemma join_lits_ok cn : forall xs i s ns vars cs F, sinv s0 ns0 s ns vars cs F -> length cs = length xs -> (forall x, In x xs -> pos x < length vars) ->
      (forall j, j < length xs -> slot s (cn, i + j) = Some (nth j cs 0)) ->
      exists s' ns' vars', join_lits (R := R) cn i xs vars s = (s', Some vars') /\ length vars' = length vars /\
        sinv s0 ns0 s' (ns ++ ns') vars' [] (fun ys _ => F ys (map (fun x => nth (pos x) ys 0) xs)) /\
        (forall m m', connected s m m' -> connected s' m m') /\ tracks s s' vars vars' /\
        (forall x, In x xs -> exists h, on s' h (nth (pos x) vars' 0) /\ connected s' cn h).
    Proof.
      induction xs as [|x xs IH]; intros i s ns vars cs F I Lc Hx Hs.
      - destruct cs; [|discriminate]. exists s, [], vars. cbn [join_lits ret map]. split; [reflexivity|]. split; [reflexivity|]. rewrite app_nil_r.
        split; [apply (sinv_ext I); intros ys rs _ [Q _]; destruct rs; [reflexivity|discriminate]|]. split; [auto|]. split; [|intros x []].
        intros k h _ Hh. exists h. split; [exact Hh|apply conn_refl].
      - destruct cs as [|c cs]; [discriminate|]. cbn [length] in Lc. injection Lc as Lc.
        pose proof (Hx x (or_introl eq_refl)) as Hk.
        pose proof (Hs 0 ltac:(cbn; lia)) as Hc. rewrite Nat.add_0_r in Hc. cbn [nth] in Hc.
        destruct (sinv_literal W0 xs I Hk Hc eq_refl) as (s1 & n & out & E & I1 & C1 & On & Pv & Pc & Keep).
        set (vars1 := replace_nth (pos x) out vars) in *.
        assert (length vars1 = length vars) as L1 by apply replace_nth_length.
        destruct (IH (S i) s1 (ns ++ [n]) vars1 cs _ I1 Lc) as (s2 & ns2 & vars2 & E2 & L2 & I2 & C2 & T2 & Q2).
        { intros y Hy. rewrite L1. apply Hx. right. exact Hy. }
        { intros j Hj. pose proof (Hs (S j) ltac:(cbn; lia)) as Q. cbn [nth] in Q. replace (S i + j) with (i + S j) by lia.
          pose proof (si_nodup I) as ND. apply NoDup_app_iff in ND. destruct ND as (D1 & D2 & D3).
          assert (In (nth j cs 0) cs) as Hin by (apply nth_In; lia).
          apply Keep; [exact Q| |].
          - intros K. rewrite K in Hin. apply NoDup_cons_iff in D2. tauto.
          - intros K. apply (D3 (nth j cs 0)); [rewrite K; apply nth_In, Hk|right; exact Hin]. }
        assert (tracks s s1 vars vars1) as T1.
        { intros k h Hk' Hh. unfold vars1. rewrite nth_replace by exact Hk. destruct (Nat.eqb_spec k (pos x)) as [->|Hne].
          - exists n. split; [exact On|apply Pv, Hh].
          - exists h. split; [|apply conn_refl]. destruct Hh as (q & Hq). exists q. pose proof (si_nodup I) as ND. apply NoDup_app_iff in ND. destruct ND as (D1 & D2 & D3).
            apply Keep; [exact Hq| |].
            + intros K. apply (D3 (nth k vars 0)); [apply nth_In, Hk'|left; symmetry; exact K].
            + intros K. apply Hne. apply (proj1 (NoDup_nth vars 0) D1); auto. }
        exists s2, ([n] ++ ns2), vars2. split; [rewrite E; exact E2|]. split; [congruence|]. rewrite app_assoc. split; [exact I2|].
        split; [intros m m' K; apply C2, C1, K|]. split; [apply (tracks_trans L1 C2 T1 T2)|].
        intros y [<-|Hy]; [|apply Q2, Hy].
        destruct (T2 (pos x) n) as (h & H1 & H2); [rewrite L1; exact Hk| |].
        { unfold vars1. rewrite nth_replace by exact Hk. rewrite Nat.eqb_refl. exact On. }
        exists h. split; [exact H1|]. refine (connected_trans (C2 _ _ (Pc cn _)) H2). exists i. exact Hc.
    Qed.

    (** the value of the clauses at an assignment *)
    Definition clause_val (c : clause) (ys : list nat) : R := elt (clause_tensor (R := R) c) (map (fun x => nth (pos x) ys 0) (lits c)).
    Lemma join_clauses_ok : forall cls s ns vars F, sinv s0 ns0 s ns vars [] F -> (forall c x, In c cls -> In x (lits c) -> pos x < length vars) ->
      exists s' ns' vars', join_clauses (R := R) cls vars s = (s', Some vars') /\ length vars' = length vars /\
        sinv s0 ns0 s' (ns ++ ns') vars' [] (fun ys _ => F ys [] *! lprod cls (fun c => clause_val c ys)) /\
        (forall m m', connected s m m' -> connected s' m m') /\ tracks s s' vars vars' /\
        (forall c x y, In c cls -> In x (lits c) -> In y (lits c) -> exists h h', on s' h (nth (pos x) vars' 0) /\ on s' h' (nth (pos y) vars' 0) /\ connected s' h h').
    Proof.
      induction cls as [|c cls IH]; intros s ns vars F I Hx.
      - exists s, [], vars. cbn [join_clauses ret]. split; [reflexivity|]. split; [reflexivity|]. rewrite app_nil_r.
        split; [apply (sinv_ext I); intros ys rs _ [Q _]; destruct rs; [cbn; ring|discriminate]|]. split; [auto|]. split; [|intros c x y []].
        intros k h _ Hh. exists h. split; [exact Hh|apply conn_refl].
      - destruct (sinv_beside I (t := clause_tensor c)) as (s1 & cn & nes & E1 & L1 & S1 & C1 & O1 & I1); [reflexivity|cbn; lia|].
        cbn [rank shape clause_tensor length] in L1, S1.
        assert (length (lits c) = 3) as L3 by (destruct c as [[x y] z]; reflexivity).
        destruct (join_lits_ok (cn := cn) (xs := lits c) (i := 0) I1) as (s2 & ns2 & vars2 & E2 & L2 & I2 & C2 & T2 & Q2).
        { rewrite L1, L3. reflexivity. }
        { intros x H. apply (Hx c x (or_introl eq_refl) H). }
        { intros j Hj. rewrite L3 in Hj. apply (S1 j Hj). }
        destruct (IH s2 ((ns ++ [cn]) ++ ns2) vars2 _ I2) as (s3 & ns3 & vars3 & E3 & L3' & I3 & C3 & T3 & Q3).
        { intros c' x Hc' H. rewrite L2. apply (Hx c' x (or_intror Hc') H). }
        exists s3, ([cn] ++ ns2 ++ ns3), vars3. split.
        { cbn [join_clauses]. unfold bind at 1. rewrite E1. unfold bind at 1. rewrite E2. exact E3. }
        split; [congruence|]. rewrite !app_assoc.
        split; [apply (sinv_ext I3); intros ys rs _ _; rewrite lprod_cons; unfold clause_val; ring|].
        split; [intros m m' K; apply C3, C2, C1, K|]. split.
        { apply (tracks_trans (s1 := s2) (l1 := vars2)); auto. intros k h Hk Hh. apply (T2 k h Hk), O1, Hh. }
        intros c' x y [<-|Hc'] X Y; [|apply (Q3 c' x y Hc' X Y)].
        destruct (Q2 x X) as (h & H1 & H2). destruct (Q2 y Y) as (h' & H1' & H2').
        destruct (T3 (pos x) h) as (g & G1 & G2); [rewrite L2; apply (Hx c x (or_introl eq_refl) X)|exact H1|].
        destruct (T3 (pos y) h') as (g' & G1' & G2'); [rewrite L2; apply (Hx c y (or_introl eq_refl) Y)|exact H1'|].
        exists g, g'. split; [exact G1|]. split; [exact G1'|].
        refine (connected_trans (connected_sym (connected_trans (C3 _ _ H2) G2)) (connected_trans (C3 _ _ H2') G2')).
    Qed.

    Lemma var_nodes_ok : forall n s ns vars, sinv s0 ns0 s ns vars [] (fun _ _ => r1) ->
      exists s' ns' es, var_nodes (R := R) n s = (s', Some es) /\ length es = n /\ sinv s0 ns0 s' (ns ++ ns') (vars ++ es) [] (fun _ _ => r1).
    Proof.
      induction n as [|n IH]; intros s ns vars I.
      - exists s, [], []. rewrite !app_nil_r. split; [reflexivity|]. split; [reflexivity|exact I].
      - destruct (sinv_beside I (t := var_tensor)) as (s1 & v & nes & E1 & L1 & S1 & _ & _ & I1); [reflexivity|cbn; lia|].
        cbn [rank shape var_tensor length] in L1, S1. destruct nes as [|e [|]]; try discriminate.
        assert (sinv s0 ns0 s1 (ns ++ [v]) (vars ++ [e]) [] (fun _ _ => r1)) as I2.
        { apply sinv_move. apply (sinv_ext I1). intros ys rs _ _. cbn. ring. }
        destruct (IH s1 (ns ++ [v]) (vars ++ [e]) I2) as (s2 & ns2 & es & E2 & L2 & I3).
        exists s2, ([v] ++ ns2), (e :: es). split.
        { cbn [var_nodes]. unfold bind at 1. rewrite E1. unfold bind at 1. rewrite (edge_of_slot (S1 0 ltac:(lia))). cbn [nth]. unfold bind. rewrite E2. reflexivity. }
        split; [cbn; congruence|]. rewrite app_assoc. replace (vars ++ e :: es) with ((vars ++ [e]) ++ es) by (rewrite <- app_assoc; reflexivity). exact I3.
    Qed.
  End Base.

  (** ** the clauses *)
  Lemma num_vars_spec cs n : num_vars cs = Some n <-> largest cs n.
  Proof.
    assert (forall vs v n, fold_left Nat.max vs v = n <-> In n (v :: vs) /\ forall u, In u (v :: vs) -> u <= n) as F.
    { induction vs as [|w vs IH]; intros v m; cbn [fold_left].
      - split; [intros <-; split; [left; reflexivity|intros u [<-|[]]; lia]|]. intros [[H|[]] _]. exact H.
      - rewrite IH. split; intros [H1 H2].
        + pose proof (H2 _ (or_introl eq_refl)). split.
          * destruct H1 as [H1|H1]; [|right; right; exact H1]. destruct (Nat.max_spec v w) as [[_ Q]|[_ Q]]; rewrite Q in H1; cbn; auto.
          * intros u [<-|[<-|Hu]]; [lia|lia|]. apply H2. right. exact Hu.
        + split.
          * pose proof (H2 v ltac:(cbn; auto)). pose proof (H2 w ltac:(cbn; auto)). destruct H1 as [<-|[<-|H1]]; [left; lia|left; lia|right; exact H1].
          * intros u [<-|Hu]; [apply Nat.max_lub; apply H2; cbn; auto|]. apply H2. right. right. exact Hu. }
    assert (forall v, In v (flat_map (fun c => map Z.abs_nat (lits c)) cs) <-> exists c, In c cs /\ occurs v c) as O.
    { intros v. rewrite in_flat_map. split; intros (c & Hc & H); exists c; split; auto; destruct c as [[x y] z]; cbn in *; intuition. }
    unfold num_vars, largest. destruct (flat_map _ cs) as [|v vs].
    - split; [discriminate|]. intros [H _]. apply O in H. destruct H.
    - split.
      + intros H. injection H as H. apply F in H. destruct H as [H1 H2]. split; [apply O, H1|]. intros c u Hc Hu. apply H2, O. eauto.
      + intros [H1 H2]. f_equal. apply F. split; [apply O, H1|]. intros u Hu. apply O in Hu. destruct Hu as (c & Hc & Hu). apply (H2 c u Hc Hu).
  Qed.
  Lemma clause_val_ok c ys : ~ In 0%Z (lits c) -> (forall x, In x (lits c) -> nth (pos x) ys 0 < 2) -> clause_val c ys = if clause_holds ys c then r1 else r0.
  Proof.
    destruct c as [[x y] z]. intros Hz Hb. unfold clause_val, clause_tensor, clause_holds, lits, elt. cbn [map].
    assert (forall u, In u [x; y; z] -> (Z.of_nat (nth (pos u) ys 0) = zero_at u <-> holds ys u = false)) as H.
    { intros u Hu. pose proof (Hb u Hu) as B. assert (u <> 0%Z) by (intros ->; apply Hz; exact Hu). unfold holds, zero_at. fold (pos u).
      destruct (nth (pos u) ys 0) as [|[|]]; [| |lia]; destruct (Z.ltb_spec 0 u); [rewrite Z.sgn_pos by lia|rewrite Z.sgn_neg by lia|rewrite Z.sgn_pos by lia|rewrite Z.sgn_neg by lia]; cbn; split; intros; congruence || reflexivity. }
    pose proof (H x ltac:(cbn; auto)) as Hx. pose proof (H y ltac:(cbn; auto)) as Hy. pose proof (H z ltac:(cbn; auto)) as Hz'.
    destruct (list_eq_dec _ _ _) as [E|E].
    - injection E as E1 E2 E3. apply Hx in E1. apply Hy in E2. apply Hz' in E3. rewrite E1, E2, E3. reflexivity.
    - destruct (holds ys x || holds ys y || holds ys z) eqn:Q; [reflexivity|]. exfalso. apply E. apply orb_false_iff in Q. destruct Q as [Q Q3]. apply orb_false_iff in Q. destruct Q as [Q1 Q2].
      rewrite (proj2 Hx Q1), (proj2 Hy Q2), (proj2 Hz' Q3). reflexivity.
  Qed.
  Lemma clauses_val_ok cs ys : (forall c, In c cs -> ~ In 0%Z (lits c)) -> (forall c x, In c cs -> In x (lits c) -> nth (pos x) ys 0 < 2) ->
    lprod cs (fun c => clause_val c ys) = if satisfies cs ys then r1 else r0.
  Proof.
    induction cs as [|c cs IH]; intros Hz Hb; [reflexivity|]. rewrite lprod_cons, IH, clause_val_ok. cbn [satisfies forallb].
    - fold (satisfies cs ys). destruct (clause_holds ys c), (satisfies cs ys); cbn; ring.
    - apply Hz. left. reflexivity.
    - intros x Hx. apply (Hb c x (or_introl eq_refl) Hx).
    - intros c' Hc'. apply Hz. right. exact Hc'.
    - intros c' x Hc' Hx. apply (Hb c' x (or_intror Hc') Hx).
  Qed.

  (** ** sat_tn *)
  Definition good (cs : list clause) : Prop := forall c, In c cs -> ~ In 0%Z (lits c).
  Lemma good_guard cs : good cs -> negb (existsb (fun c => existsb (Z.eqb 0) (lits c)) cs) = true.
  Proof.
    intros H. destruct (existsb _ cs) eqn:E; [|reflexivity]. apply existsb_exists in E. destruct E as (c & Hc & E). apply existsb_exists in E. destruct E as (x & Hx & E).
    apply Z.eqb_eq in E. subst x. elim (H c Hc Hx).
  Qed.
  Lemma lits_pos cs n c x : good cs -> largest cs n -> In c cs -> In x (lits c) -> pos x < n.
  Proof.
    intros G [_ H] Hc Hx. assert (Z.abs_nat x <= n) as Q by (apply (H c); [exact Hc|]; destruct c as [[a b] d]; destruct Hx as [<-|[<-|[<-|[]]]]; cbn; auto).
    assert (x <> 0%Z) by (intros ->; apply (G c Hc Hx)). unfold pos. lia.
  Qed.
  Lemma sat_ok s0 ns0 cs n : wf s0 -> live s0 ns0 -> good cs -> largest cs n ->
    exists s ns vars, sat_tn (R := R) cs s0 = (s, Some vars) /\ length vars = n /\
      sinv s0 ns0 s ns vars [] (fun ys _ => if satisfies cs ys then r1 else r0) /\
      (forall c x y, In c cs -> In x (lits c) -> In y (lits c) -> exists h h', on s h (nth (pos x) vars 0) /\ on s h' (nth (pos y) vars 0) /\ connected s h h').
  Proof.
    intros W LV G L.
    destruct (@var_nodes_ok s0 ns0 n s0 [] [] (sinv_start W LV)) as (s1 & ns1 & es & E1 & L1 & I1). cbn [app] in I1.
    destruct (@join_clauses_ok s0 ns0 W cs s1 ns1 es _ I1) as (s2 & ns2 & vars & E2 & L2 & I2 & _ & _ & Q).
    { intros c x Hc Hx. rewrite L1. apply (lits_pos G L Hc Hx). }
    exists s2, (ns1 ++ ns2), vars. split.
    { unfold sat_tn. unfold bind at 1, guard. rewrite (good_guard G). cbn [ret]. rewrite (proj2 (num_vars_spec cs n) L). unfold bind. rewrite E1. exact E2. }
    split; [congruence|]. split; [|exact Q].
    apply (sinv_ext I2). intros ys rs [By1 By2] _. rewrite clauses_val_ok; [ring|exact G|].
    intros c x Hc Hx. assert (pos x < length ys) as Q' by (rewrite By1, L2, L1; apply (lits_pos G L Hc Hx)). apply By2. rewrite L2, L1. apply (lits_pos G L Hc Hx).
  Qed.
End SM.
