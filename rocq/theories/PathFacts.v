(** * PathFacts: contracting a network along any path *)
From Verif Require Import Prelude Algebra Tensor TensorFacts Einsum EinsumFacts NetworkFacts Graph GraphBase GraphContract GraphOps GraphValue GraphOuter GraphConnect GraphJoin GraphBetween GraphRetail GraphFuse GraphFlatten GraphTrace GraphSplit GraphProg GraphSched GraphLaws GraphQuery GraphQueryFacts GraphCompound GraphNames GraphTotal GraphTotal2 GraphDead PathContract.
Set Implicit Arguments.
Unset Strict Implicit.

(** ** Lists *)
Lemma multi_remove_app A (l : list A) ix x : (forall i, In i ix -> i < length l) -> multi_remove (l ++ [x]) ix = multi_remove l ix ++ [x].
Proof.
  intros H. unfold multi_remove. rewrite app_length. cbn [length]. rewrite seq_app. cbn [seq].
  assert (forall (p q : list nat) (u v : list A), length p = length u -> combine (p ++ q) (u ++ v) = combine p u ++ combine q v) as C.
  { induction p as [|a p IH]; intros q [|b u] v E; try discriminate E; [reflexivity|]. cbn. rewrite IH; [reflexivity|]. injection E as E. exact E. }
  rewrite C by apply seq_length. rewrite filter_app, map_app. f_equal. cbn.
  assert (mem (length l) ix = false) as -> by (apply mem_nIn; intros K; specialize (H _ K); lia). reflexivity.
Qed.

Lemma filter_split A (p : A -> bool) l : Permutation l (filter p l ++ filter (fun x => negb (p x)) l).
Proof.
  induction l as [|x l IH]; [constructor|]. cbn. destruct (p x); cbn; [constructor; exact IH|]. rewrite IH at 1. apply Permutation_middle.
Qed.

Lemma multi_remove_perm A (l : list A) a b x y : a <> b -> nth_error l a = Some x -> nth_error l b = Some y -> Permutation l (x :: y :: multi_remove l [a; b]).
Proof.
  intros Hab Hx Hy. set (c := combine (seq 0 (length l)) l).
  assert (map snd c = l) as Es. { unfold c. clear. generalize 0. induction l as [|z l IH]; intros k; [reflexivity|]. cbn. f_equal. apply IH. }
  assert (forall i z, In (i, z) c <-> nth_error l i = Some z) as Hc.
  { intros i z. unfold c. assert (forall k, In (i, z) (combine (seq k (length l)) l) <-> k <= i /\ nth_error l (i - k) = Some z) as G.
    { clear. induction l as [|w l IH]; intros k; cbn [length seq combine In].
      - split; [intros []|]. intros [_ K]. destruct (i - k); discriminate K.
      - rewrite IH. split.
        + intros [E|[L K]]; [injection E as <- <-; split; [lia|]; rewrite Nat.sub_diag; reflexivity|]. split; [lia|]. replace (i - k) with (S (i - S k)) by lia. exact K.
        + intros [L K]. destruct (Nat.eq_dec i k) as [->|]; [left; rewrite Nat.sub_diag in K; cbn in K; congruence|right]. split; [lia|].
          replace (i - k) with (S (i - S k)) in K by lia. exact K. }
    rewrite G, Nat.sub_0_r. split; [intros [_ K]; exact K|]. intros K. split; [lia|exact K]. }
  assert (NoDup c) as ND.
  { apply (NoDup_map_inv fst). unfold c. assert (forall k, map fst (combine (seq k (length l)) l) = seq k (length l)) as E.
    { clear. induction l as [|z l IH]; intros k; [reflexivity|]. cbn. f_equal. apply IH. } rewrite E. apply seq_NoDup. }
  unfold multi_remove. fold c. rewrite <- Es at 1. rewrite (Permutation_map snd (filter_split (fun p => mem (fst p) [a; b]) c)), map_app.
  change (x :: y :: ?r) with ([x; y] ++ r). apply Permutation_app_tail.
  assert (Permutation (filter (fun p => mem (fst p) [a; b]) c) [(a, x); (b, y)]) as P.
  { apply NoDup_Permutation; [apply NoDup_filter; exact ND|repeat constructor; cbn; intuition congruence|]. intros [i z]. rewrite filter_In, Hc, mem_In. cbn [fst In]. split.
    - intros [K [<-|[<-|[]]]]; [left|right; left]; congruence.
    - intros [E|[E|[]]]; injection E as <- <-; auto. }
  rewrite P. reflexivity.
Qed.

Section PF.
  Context {R : csr}.
  Notation st := (@st R).
  Notation M := (@M R).
  Notation node := (@node R).
  Implicit Types (s : st) (e : eid).
  Notation cnt := (count_occ Nat.eq_dec).
  Variable iter : list nat -> list nat.
  Hypothesis iter_perm : forall l, Permutation (iter l) l.

  (** the edges left open by a set of nodes *)
  Definition boundary s (S : list nid) e : Prop := exists n, In n S /\ (open_on s n e \/ exists m, ~ In m S /\ between s n m e).

  Lemma cnt_boundary s S e : wf s -> NoDup S -> cnt (net_labels (net_of s S)) e = 1 <-> boundary s S e.
  Proof using .
    intros W HS. rewrite <- occ_length. split.
    - intros L. destruct (occ s S e) as [|p [|? ?]] eqn:Eo; try discriminate L.
      assert (In (fst p) S /\ slot s p = Some e) as [Hp Hs] by (apply occ_slot; rewrite Eo; left; reflexivity).
      destruct (wf_slot W Hs) as (ed & Hed & _). destruct p as [n k]. cbn [fst] in Hp.
      destruct (slot_partner W Hs Hed) as [(_ & _ & U)|(q & Hpq & Hq & _ & U)].
      + exists n. split; [exact Hp|]. left. exists k. auto.
      + exists n. split; [exact Hp|]. right. exists (fst q). split; [|exists (n, k), q; auto].
        intros K. assert (In q (occ s S e)) as Hi by (apply occ_slot; auto). rewrite Eo in Hi. destruct Hi as [<-|[]]. apply Hpq. reflexivity.
    - assert (forall n k, In n S -> slot s (n, k) = Some e -> (forall q, slot s q = Some e -> q = (n, k) \/ ~ In (fst q) S) -> length (occ s S e) = 1) as G.
      { intros n k Hn Hs U. assert (Permutation (occ s S e) [(n, k)]) as P; [|rewrite P; reflexivity].
        apply NoDup_Permutation; [apply occ_NoDup; exact HS|repeat constructor; intros []|]. intros q. rewrite occ_slot. split.
        - intros [Q1 Q2]. destruct (U q Q2) as [->|]; [left; reflexivity|contradiction].
        - intros [<-|[]]. auto. }
      intros (n & Hn & [(k & Hs & U)|(m & Hm & p & q & Hpq & <- & <- & Hs & Hq)]).
      + apply (G n k Hn Hs). intros q Hq. left. apply U. exact Hq.
      + destruct p as [n k]. cbn [fst] in *. apply (G n k Hn Hs). intros r Hr. destruct (wf_slot W Hs) as (ed & Hed & _).
        destruct (slot_partner W Hs Hed) as [(_ & _ & U)|(q' & Hpq' & Hq' & _ & U)].
        * exfalso. apply Hpq. symmetry. apply U. exact Hq.
        * destruct (U q Hq) as [E|E]; [congruence|]. subst q'. destruct (U r Hr) as [->| ->]; auto.
  Qed.

  (** ** The invariant: [S] in state [s] stands for the network [S0] of state [s0] *)
  Record stands s0 (S0 : list nid) s (S : list nid) : Prop := {
    sd_wf : wf s;
    sd_net : network s S;
    sd_name : forall n, In n S -> nameable s n;
    sd_incl : incl (net_labels (net_of s S)) (net_labels (net_of s0 S0));
    sd_cnt : forall x, cnt (net_labels (net_of s S)) x = 1 <-> cnt (net_labels (net_of s0 S0)) x = 1;
    sd_dim : forall x, In x (net_labels (net_of s S)) -> edim s x = edim s0 x;
    sd_val : forall a, open_ok s0 S0 a -> open_ok s S a /\ netval s0 S0 a = netval s S a;
    sd_out : forall m, is_node s0 m -> ~ In m S0 -> ~ In m S /\ s_nodes s m = s_nodes s0 m
  }.

  Lemma stands_refl s S : wf s -> network s S -> (forall n, In n S -> nameable s n) -> stands s S s S.
  Proof using . intros W N K. split; auto; try reflexivity. apply incl_refl. Qed.
  Lemma stands_perm s0 S0 s S S' : stands s0 S0 s S -> Permutation S S' -> stands s0 S0 s S'.
  Proof using .
    intros H P. pose proof (net_of_perm s P) as PL. assert (forall x, In x S' <-> In x S) as Hi by (intros x; split; apply Permutation_in; [symmetry|]; exact P). split.
    - apply (sd_wf H).
    - destruct (sd_net H) as [A B]. split; [apply (Permutation_NoDup P A)|]. intros n Hn. apply B, Hi, Hn.
    - intros n Hn. apply (sd_name H). apply Hi, Hn.
    - intros x Hx. apply (sd_incl H). apply (Permutation_in _ (Permutation_sym PL)). exact Hx.
    - intros x. rewrite <- (sd_cnt H). rewrite (@cnt_perm _ Nat.eq_dec _ _ x PL). reflexivity.
    - intros x Hx. apply (sd_dim H). apply (Permutation_in _ (Permutation_sym PL)). exact Hx.
    - intros a Ha. destruct (sd_val H Ha) as [A B]. split; [apply (open_ok_perm P A)|]. rewrite B. apply netval_perm. exact P.
    - intros m Hm1 Hm2. destruct (sd_out H Hm1 Hm2) as [A B]. split; [rewrite Hi; exact A|exact B].
  Qed.

  Lemma stands_step s0 S0 s S s' olds N rest : stands s0 S0 s S -> contracted s s' olds N -> Permutation S (olds ++ rest) ->
    (forall n, nameable s n -> nameable s' n) -> stands s0 S0 s' (N :: rest).
  Proof using .
    intros H0 C P Hnm. apply (stands_perm (S' := olds ++ rest)) in H0; [|exact P]. clear P S. pose proof (sd_wf H0) as W. destruct (sd_net H0) as [ND Hex].
    assert (~ In N rest) as NN by (intros K; apply (Hex N); [apply in_or_app; right; exact K|apply (ct_new C)]).
    destruct (contracted_open W C ND NN) as [O1 O2].
    assert (forall m, In m rest -> s_nodes s' m = s_nodes s m) as Er.
    { intros m Hm. apply (ct_others C); [|intros ->; contradiction]. intros K. apply NoDup_app_iff in ND. destruct ND as (_ & _ & Q). apply (Q m K Hm). }
    assert (incl (net_labels (net_of s' (N :: rest))) (net_labels (net_of s (olds ++ rest)))) as I1.
    { intros x Hx. change (N :: rest) with ([N] ++ rest) in Hx. rewrite net_of_app, net_labels_app in *.
      apply in_or_app. apply in_app_or in Hx. destruct Hx as [Hx|Hx].
      - left. destruct (ct_perm C) as (cut & Pc). apply (Permutation_in _ (Permutation_sym Pc)). apply in_or_app; right. apply in_or_app; right. exact Hx.
      - right. rewrite (@net_of_ext _ s s') in Hx; [exact Hx|]. exact Er. }
    split.
    - apply (ct_wf C).
    - split; [constructor; [exact NN|apply NoDup_app_iff in ND; apply ND]|]. intros n [<-|Hn]; [destruct (ct_node C) as (nd & ->); discriminate|].
      rewrite Er by exact Hn. apply Hex. apply in_or_app; right; exact Hn.
    - intros n [<-|Hn]; apply Hnm; [intros nd K; rewrite (ct_new C) in K; discriminate K|]. apply (sd_name H0). apply in_or_app; right; exact Hn.
    - intros x Hx. apply (sd_incl H0), I1, Hx.
    - intros x. rewrite O1. apply (sd_cnt H0).
    - intros x Hx. rewrite O2 by exact Hx. apply (sd_dim H0). apply I1, Hx.
    - intros a Ha. destruct (sd_val H0 Ha) as [A B]. split; [apply (contracted_open_ok a W C ND NN); exact A|]. rewrite B. apply (ct_value C ND NN A).
    - intros m Hm1 Hm2. destruct (sd_out H0 Hm1 Hm2) as [A B].
      assert (m <> N) as HmN by (intros ->; apply Hm1; rewrite <- B; apply (ct_new C)).
      split; [intros [K|K]; [congruence|apply A; apply in_or_app; right; exact K]|]. rewrite (ct_others C); [exact B| |exact HmN]. intros K. apply A. apply in_or_app; left; exact K.
  Qed.

  (** ** Nodes without trace edges *)
  Definition plain s n : Prop := NoDup (edges_at0 s n).

  Lemma plain_spec s n : is_node s n -> plain s n <-> forall e, ~ between s n n e.
  Proof using .
    intros Hn. destruct (is_node_Some Hn) as (nd & En). unfold plain, edges_at0. rewrite En. split.
    - intros ND e K. apply (between_self_count e En) in K. rewrite (NoDup_count_occ Nat.eq_dec) in ND. specialize (ND e). lia.
    - intros K. apply (NoDup_count_occ Nat.eq_dec). intros e. specialize (K e). rewrite (between_self_count e En) in K. lia.
  Qed.

  Lemma NoDup_kept cut l : NoDup l -> NoDup (kept_of cut l).
  Proof using . intros H. apply NoDup_filter. exact H. Qed.

  (** contracting two plain nodes gives a plain node *)
  Lemma pair_plain n1 n2 ao s s' N : wf s -> n1 <> n2 -> plain s n1 -> plain s n2 -> contract_between iter n1 n2 ao [] None s = (s', Some N) -> plain s' N.
  Proof.
    intros W Hne P1 P2 E. destruct (between_step iter_perm W Hne E) as (_ & d1 & d2 & nd' & E1 & E2 & EN & P & _).
    unfold plain, edges_at0 in *. rewrite E1 in P1. rewrite E2 in P2. rewrite EN. apply (Permutation_NoDup (Permutation_sym P)).
    apply NoDup_app_iff. split; [apply NoDup_kept; exact P1|]. split; [apply NoDup_kept; exact P2|].
    intros e K1 K2. unfold kept_of in K1, K2. apply filter_In in K1. apply filter_In in K2. destruct K1 as [K1 Kn]. destruct K2 as [K2 _].
    apply negb_true_iff, mem_nIn in Kn. apply Kn. rewrite (shared_spec n2 e E1). split; [exact K1|].
    apply In_nth_error in K1. destruct K1 as [i Hi]. apply In_nth_error in K2. destruct K2 as [j Hj].
    pose proof (slot_intro E1 Hi) as S1. pose proof (slot_intro E2 Hj) as S2. destruct (wf_slot W S1) as (ed & Hed & _). exists ed. split; [exact Hed|].
    apply (@joins_between _ s n1 e ed n1 n2 W); [exists i; exact S1|exact Hed|]. exists (n1, i), (n2, j). repeat split; auto. intros K; congruence.
  Qed.

  (** ** The loop along the path *)
  Lemma between_pair_ok s n m : wf s -> n <> m -> is_node s n -> is_node s m -> nameable s n -> nameable s m ->
    exists s' N, contract_between iter n m true [] None s = (s', Some N).
  Proof.
    intros W Hne Hn Hm N1 N2. destruct (is_node_Some Hn) as (d1 & E1). destruct (is_node_Some Hm) as (d2 & E2).
    apply (between_ok iter_perm W E1 E2 N1 N2); [auto|left; reflexivity|exact I].
  Qed.

  Lemma follow_ok s0 S0 path : forall nodes s, stands s0 S0 s nodes -> (forall n, In n nodes -> plain s n) -> valid_path (length nodes) path ->
    exists s' N, follow iter path nodes s = (s', Some [N]) /\ stands s0 S0 s' [N] /\ plain s' N.
  Proof.
    induction path as [|[a b] path IH]; intros nodes s H HP V; cbn [valid_path] in V.
    - destruct nodes as [|N [|? ?]]; try discriminate V. exists s, N. split; [reflexivity|]. split; [exact H|]. apply HP. left; reflexivity.
    - destruct V as (La & Lb & Hab & V). cbn [follow].
      destruct (nth_error nodes a) as [n|] eqn:En; [|apply nth_error_None in En; lia]. destruct (nth_error nodes b) as [m|] eqn:Em; [|apply nth_error_None in Em; lia].
      pose proof (multi_remove_perm Hab En Em) as P. set (rest := multi_remove nodes [a; b]) in *.
      pose proof (nth_error_In _ _ En) as In1. pose proof (nth_error_In _ _ Em) as In2. destruct (sd_net H) as [ND Hex]. pose proof (sd_wf H) as W.
      assert (n <> m) as Hne. { intros ->. pose proof (Permutation_NoDup P ND) as K. apply NoDup_cons_iff in K. apply (proj1 K). left; reflexivity. }
      destruct (between_pair_ok W Hne (Hex n In1) (Hex m In2) (sd_name H In1) (sd_name H In2)) as (s1 & N & E).
      destruct (between_step iter_perm W Hne E) as (C & _).
      assert (stands s0 S0 s1 (N :: rest)) as H1.
      { apply (stands_step H C P). intros x Hx. apply (between_nameable W Hx E). }
      assert (multi_remove (nodes ++ [N]) [a; b] = rest ++ [N]) as Er by (apply multi_remove_app; intros i [<-|[<-|[]]]; assumption).
      assert (Permutation (N :: rest) (rest ++ [N])) as Pc by apply Permutation_cons_append.
      destruct (IH (rest ++ [N]) s1) as (s' & F & EF & HF & PF).
      + apply (stands_perm H1 Pc).
      + intros x Hx. apply in_app_or in Hx. destruct Hx as [Hx|[<-|[]]]; [|apply (pair_plain W Hne (HP n In1) (HP m In2) E)].
        unfold plain, edges_at0. rewrite (ct_others C); [apply HP; apply (Permutation_in _ (Permutation_sym P)); right; right; exact Hx| |].
        * intros K. pose proof (Permutation_NoDup P ND) as Q. change (n :: m :: rest) with ([n; m] ++ rest) in Q. apply NoDup_app_iff in Q. destruct Q as (_ & _ & Q). apply (Q x K Hx).
        * intros ->. apply (Hex N); [apply (Permutation_in _ (Permutation_sym P)); right; right; exact Hx|apply (ct_new C)].
      + apply Permutation_length in P. cbn [length] in P. rewrite app_length. cbn [length]. replace (length rest + 1) with (length nodes - 1) by lia. exact V.
      + exists s', F. split; [|auto]. unfold bind. rewrite E, Er. exact EF.
  Qed.

  (** ** The loop over trace edges *)
  Lemma parallel_dead e n s s' N : wf s -> between s n n e -> contract_parallel iter e s = (s', Some N) -> forall f, between s n n f \/ dead s f -> dead s' f.
  Proof.
    intros W Hb E. assert (on s n e) as Ho by (destruct Hb as ([? ?] & q & _ & <- & _ & K & _); eexists; exact K). destruct (is_node_Some (on_node Ho)) as (nd & En).
    unfold contract_parallel in E. apply bind_inv in E. destruct E as (ed & s1 & H & E). apply get_edge_inv in H. destruct H as (-> & He & _).
    destruct (kinds W Ho He) as [(_ & _ & _ & _ & K)|(m & a2 & E2 & _ & _ & _ & _ & K)]; [exfalso; apply (K n n Hb)|].
    apply K in Hb. rewrite E2 in E. assert (e_n1 ed = n /\ m = n) as [En1 Em] by (destruct Hb as [[? ?]|[? ?]]; auto). rewrite En1, Em in E.
    unfold contract_between in E. apply bind_inv in E. destruct E as (d1 & s1 & H & E). apply get_node_inv in H. destruct H as [-> _].
    apply bind_inv in E. destruct E as (d2 & s1 & H & E). apply get_node_inv in H. destruct H as [-> _].
    apply bind_inv in E. destruct E as (shared & s1 & H1 & H).
    unfold get_shared_edges in H1. apply bind_inv in H1. destruct H1 as (d0 & s2 & H0 & H1). apply get_node_inv in H0. destruct H0 as [-> _].
    injection H1 as <- <-. set (cut := iter (shared_list s n n)) in *.
    assert (forall f, In f cut <-> between s n n f) as Ic.
    { intros f. unfold cut. rewrite (In_iter iter_perm). rewrite (shared_spec n f En). split.
      - intros (K1 & fd & K2 & K3). apply (@joins_between _ _ _ _ _ n n W (proj2 (on_In f En) K1) K2). exact K3.
      - intros Kf. assert (on s n f) as Hf by (destruct Kf as ([? ?] & q & _ & <- & _ & Kf & _); eexists; exact Kf). split; [apply (on_In f En); exact Hf|].
        destruct (on_edge W Hf) as (fd & F1 & _). exists fd. split; [exact F1|]. apply (@joins_between _ _ _ _ _ n n W Hf F1). exact Kf. }
    rewrite Nat.eqb_refl in H. apply bind_inv in H. destruct H as (N' & s1 & H1 & H).
    assert (s' = s1) as -> by (unfold bind, ret in H; injection H as <- _; reflexivity). clear H.
    assert (cut <> [] /\ bind (flatten_edges iter cut) (fun e => contract e None) s = (s1, Some N')) as [Hne H1'].
    { destruct cut as [|c0 cr]; [discriminate|]. split; [discriminate|exact H1]. }
    intros f Hf. apply (@self_dead _ iter n cut s s1 N' Hne); [|exact H1'|rewrite Ic; exact Hf].
    intros c Hc. apply Ic in Hc. assert (on s n c) as [k Hk] by (destruct Hc as ([? ?] & q & _ & <- & _ & Kf & _); eexists; exact Kf).
    pose proof (slot_lt W Hk) as [_ Lc]. split; [exact Lc|]. destruct (wf_slot W Hk) as (cd & C1 & _). exists cd. split; [exact C1|].
    apply (@joins_between _ s n c cd n n W); [exists k; exact Hk|exact C1|exact Hc].
  Qed.

  (** the loop turns every node into one without trace edges *)
  Lemma trace_loop_ok s0 S0 es : forall S s, stands s0 S0 s S ->
    (forall e, In e es -> dead s e \/ exists n, In n S /\ on s n e) ->
    (forall n e, In n S -> between s n n e -> In e es) ->
    exists s' S', trace_loop iter es S s = (s', Some S') /\ stands s0 S0 s' S' /\ length S' = length S /\ forall n, In n S' -> plain s' n.
  Proof.
    induction es as [|e es IH]; intros S s H Hl Ht; cbn [trace_loop]; pose proof (sd_wf H) as W; destruct (sd_net H) as [ND Hex].
    - exists s, S. split; [reflexivity|]. split; [exact H|]. split; [reflexivity|]. intros n Hn. apply (plain_spec (Hex n Hn)). intros e K. apply (Ht n e Hn K).
    - assert ((forall n, In n S -> ~ between s n n e) -> exists s' S', trace_loop iter es S s = (s', Some S') /\ stands s0 S0 s' S' /\ length S' = length S /\ forall n, In n S' -> plain s' n) as Skip.
      { intros Hno. apply IH; [exact H|intros f Hf; apply Hl; right; exact Hf|]. intros n f Hn Hf. destruct (Ht n f Hn Hf) as [<-|K]; [exfalso; apply (Hno n Hn Hf)|exact K]. }
      destruct (Hl e (or_introl eq_refl)) as [(Le & ed & Ed & Dd)|(n & Hn & Ho)].
      + unfold bind at 1. rewrite Ed, Dd. apply Skip. intros n Hn ([? k] & q & _ & <- & _ & K & _). destruct (wf_slot W K) as (ed' & E' & D' & _). congruence.
      + destruct (on_edge W Ho) as (ed & Ed & Dd). unfold bind at 1. rewrite Ed, Dd.
        assert (is_trace_edge ed = true <-> between s n n e) as Tr.
        { destruct (kinds W Ho Ed) as [(E2 & _ & _ & _ & K)|(m & a2 & E2 & _ & Hnm & _ & _ & K)]; unfold is_trace_edge; rewrite E2.
          - split; [discriminate|]. intros Q. exfalso. apply (K n n Q).
          - rewrite Nat.eqb_eq, K. split; [intros Q; left; destruct Hnm; split; congruence|]. intros [[<- <-]|[<- <-]]; reflexivity. }
        destruct (is_trace_edge ed) eqn:Et.
        * assert (between s n n e) as Hb by (apply Tr; reflexivity). clear Tr.
          assert (e_n1 ed = n /\ exists a2, e_2 ed = Some (n, a2)) as [E1 (a2 & E2)].
          { destruct (kinds W Ho Ed) as [(_ & _ & _ & _ & K)|(m & a2 & E2 & _ & _ & _ & _ & K)]; [exfalso; apply (K n n Hb)|].
            apply K in Hb. destruct Hb as [[<- <-]|[<- <-]]; eauto. }
          rewrite E1. unfold bind at 1, guard. assert (mem n S = true) as -> by (apply mem_In; exact Hn). cbn [ret].
          destruct Ho as [k Hk].
          destruct (@parallel_ok R iter iter_perm e (n, k) ed s W Hk Ed) as (s1 & N & E); [congruence| |].
          { intros m Hm. unfold ends in Hm. rewrite E2 in Hm. cbn in Hm. rewrite E1 in Hm. destruct Hm as [<-|[<-|[]]]; apply (sd_name H Hn). }
          destruct (parallel_step iter_perm W (ex_intro _ _ Hk) E) as (ed' & q & F1 & F2 & C & nd' & EN & Ek).
          rewrite Ed in F1. injection F1 as <-. rewrite E2 in F2. injection F2 as <-. rewrite E1 in C, Ek. cbn [fst] in C, Ek.
          assert (nodup Nat.eq_dec [n; n] = [n]) as Enn.
          { cbn [nodup]. destruct (in_dec Nat.eq_dec n [n]) as [|K]; [|exfalso; apply K; left; reflexivity]. reflexivity. }
          rewrite Enn in C, Ek. cbn [flat_map] in Ek. destruct (is_node_Some (Hex n Hn)) as (nd & End). rewrite End, app_nil_r in Ek.
          set (rest := filter (fun x => negb (Nat.eqb x n)) S).
          assert (Permutation S ([n] ++ rest)) as P.
          { rewrite (filter_split (fun x => Nat.eqb x n) S). apply Permutation_app_tail. apply NoDup_Permutation; [apply NoDup_filter; exact ND|repeat constructor; intros []|].
            intros x. rewrite filter_In, Nat.eqb_eq. split; [intros [_ ->]; left; reflexivity|intros [<-|[]]; auto]. }
          assert (stands s0 S0 s1 (N :: rest)) as H1.
          { apply (stands_step H C P). intros x Hx. unfold contract_parallel in E. apply bind_inv in E. destruct E as (ed' & s2 & H' & E). apply get_edge_inv in H'. destruct H' as (-> & H' & _).
            rewrite Ed in H'. injection H' as <-. rewrite E2 in E. apply (between_nameable W Hx E). }
          assert (forall f, In f (shared_list s n n) <-> between s n n f) as Ic.
          { intros f. rewrite (shared_spec n f End). split.
            - intros (K1 & fd & K2 & K3). apply (@joins_between _ _ _ _ _ n n W (proj2 (on_In f End) K1) K2). exact K3.
            - intros Kf. assert (on s n f) as Hf by (destruct Kf as ([? ?] & q & _ & <- & _ & Kf & _); eexists; exact Kf). split; [apply (on_In f End); exact Hf|].
              destruct (on_edge W Hf) as (fd & F1 & _). exists fd. split; [exact F1|]. apply (@joins_between _ _ _ _ _ n n W Hf F1). exact Kf. }
          assert (forall x, In x rest -> s_nodes s1 x = s_nodes s x /\ In x S) as Er.
          { intros x Hx. unfold rest in Hx. apply filter_In in Hx. destruct Hx as [Hx Hxn]. apply negb_true_iff, Nat.eqb_neq in Hxn. split; [|exact Hx].
            apply (ct_others C); [intros [K|[]]; congruence|]. intros ->. apply (Hex N Hx). apply (ct_new C). }
          assert (forall x f, s_nodes s1 x = s_nodes s x -> between s1 x x f -> between s x x f) as Eb.
          { intros x f Ex ([y1 k1] & [y2 k2] & Q1 & Q2 & Q3 & Q4 & Q5). cbn [fst] in Q2, Q3. subst y1 y2. exists (x, k1), (x, k2). unfold slot in Q4, Q5 |- *. cbn [fst snd] in *.
            rewrite Ex in Q4, Q5. auto. }
          destruct (IH (N :: rest) s1 H1) as (s' & S' & EF & HF & Ln & HP).
          -- intros f Hf. destruct (Hl f (or_intror Hf)) as [Kd|(x & Hx & Hxf)]; [left; apply (parallel_dead W Hb E); right; exact Kd|].
             destruct (in_dec Nat.eq_dec f (shared_list s n n)) as [Ks|Ks]; [left; apply (parallel_dead W Hb E); left; apply Ic; exact Ks|]. right.
             destruct (Nat.eq_dec x n) as [->|Hxn].
             ++ exists N. split; [left; reflexivity|]. apply (on_In f EN). rewrite Ek. unfold kept_of. apply filter_In. split; [apply (on_In f End); exact Hxf|].
                apply negb_true_iff, mem_nIn. exact Ks.
             ++ exists x. assert (In x rest) as Hxr by (unfold rest; apply filter_In; split; [exact Hx|]; apply negb_true_iff, Nat.eqb_neq; exact Hxn).
                split; [right; exact Hxr|]. destruct Hxf as [j Hj]. exists j. unfold slot in Hj |- *. cbn [fst snd] in *. rewrite (proj1 (Er x Hxr)). exact Hj.
          -- intros x f [<-|Hx] Hf.
             ++ exfalso. apply (between_self_count f EN) in Hf. rewrite Ek in Hf.
                destruct (in_dec Nat.eq_dec f (shared_list s n n)) as [Ks|Ks].
                ** assert (In f (kept_of (shared_list s n n) (n_edges nd))) as Q by (apply (count_occ_In Nat.eq_dec); lia). unfold kept_of in Q. apply filter_In in Q. destruct Q as [_ Q].
                   apply negb_true_iff, mem_nIn in Q. contradiction.
                ** rewrite (count_kept _ Ks) in Hf. apply Ks. apply Ic. apply (between_self_count f End). exact Hf.
             ++ destruct (Er x Hx) as [Ex HxS]. apply (Eb x f Ex) in Hf. destruct (Ht x f HxS Hf) as [<-|K]; [exfalso|exact K].
                assert (on s x e) as Hxe by (destruct Hf as ([? ?] & q & _ & <- & _ & Kf & _); eexists; exact Kf).
                destruct (kinds W (ex_intro _ _ Hk : on s n e) Ed) as [(_ & _ & _ & _ & K)|(m & b & E2' & _ & _ & K & _ & _)]; [apply (K n n Hb)|].
                rewrite E2 in E2'. injection E2' as <- <-. assert (x = n) as -> by (destruct (K x Hxe); congruence).
                unfold rest in Hx. apply filter_In in Hx. rewrite Nat.eqb_refl in Hx. destruct Hx as [_ Hx]. discriminate Hx.
          -- exists s', S'. split; [unfold bind; rewrite E; exact EF|]. split; [exact HF|]. split; [|exact HP]. rewrite Ln. apply Permutation_length in P. rewrite P. reflexivity.
        * apply Skip. intros m Hm Kb.
          destruct (kinds W Ho Ed) as [(E2 & _ & _ & _ & K)|(m' & a2 & E2 & _ & Hnm & _ & _ & K)]; [apply (K m m Kb)|].
          apply K in Kb. unfold is_trace_edge in Et. rewrite E2 in Et. apply Nat.eqb_neq in Et. destruct Kb as [[? ?]|[? ?]]; congruence.
  Qed.

  (** ** get_path *)
  Lemma edge_dim_ok s n e : wf s -> on s n e -> exists d, edge_dim e s = (s, Some d).
  Proof using .
    intros W [k Hk]. destruct (wf_slot W Hk) as (ed & Ed & Dd & _). unfold edge_dim, bind, get_edge. rewrite Ed, Dd.
    assert (slot s (e_n1 ed, e_a1 ed) = Some e) as Hs by (apply (ends_live W Hk Ed); unfold ends; left; reflexivity).
    destruct (slot_node Hs) as (nd & En & Hj). cbn [fst snd] in En, Hj. unfold get_node. rewrite En.
    assert (e_a1 ed < length (n_edges nd)) as L by (apply nth_error_Some; congruence). rewrite (wf_rank W En) in L.
    destruct (nth_error (shape (n_t nd)) (e_a1 ed)) as [d|] eqn:E; [exists d; reflexivity|]. apply nth_error_None in E. unfold rank in L. lia.
  Qed.
  Lemma mmap_dim_ok s es : wf s -> (forall e, In e es -> exists n, on s n e) -> exists ds, mmap (@edge_dim R) es s = (s, Some ds).
  Proof using .
    intros W. induction es as [|e es IH]; intros H; [exists []; reflexivity|]. destruct (H e (or_introl eq_refl)) as (n & Hn). destruct (edge_dim_ok W Hn) as (d & Ed).
    destruct IH as (ds & Eds); [intros f Hf; apply H; right; exact Hf|]. exists (d :: ds). cbn [mmap]. unfold bind. rewrite Ed, Eds. reflexivity.
  Qed.
  Lemma get_path_ok alg nodes s : wf s -> (forall n, In n nodes -> is_node s n) ->
    exists ins out sz, length ins = length nodes /\ get_path iter alg nodes s = (s, Some (alg ins out sz)).
  Proof.
    intros W H. destruct (get_subgraph_dangling_spec iter_perm W H) as (out & E1 & _). destruct (get_all_edges_spec iter_perm H) as (es & E2 & _ & He).
    destruct (@mmap_dim_ok s es W) as (ds & E3); [intros e Hin; apply He in Hin; destruct Hin as (n & _ & K); eauto|].
    exists (map (edges_at0 s) nodes), out, (combine es ds). split; [apply map_length|]. unfold get_path, bind. rewrite (mmap_edges H), E1, E2, E3. reflexivity.
  Qed.

  (** ** base *)
  Lemma boundary_ext s S S' e : (forall n, In n S <-> In n S') -> boundary s S e -> boundary s S' e.
  Proof using . intros H (n & Hn & K). exists n. split; [apply H; exact Hn|]. destruct K as [K|(m & Hm & K)]; [left; exact K|right; exists m; rewrite <- H; auto]. Qed.
  Lemma nodup_boundary s ns e : boundary s (nodup Nat.eq_dec ns) e <-> boundary s ns e.
  Proof using . split; apply boundary_ext; intros n; rewrite nodup_In; reflexivity. Qed.

  Definition order_for s ns (order : option (list eid)) (ignore : bool) : Prop :=
    ignore = true \/
    match order with
    | Some o => NoDup o /\ forall e, In e o <-> boundary s ns e
    | None => forall e f, boundary s ns e -> boundary s ns f -> e = f
    end.

  Lemma output_order_ok s ns order : wf s -> (forall n, In n ns -> is_node s n) -> order_for s ns order false ->
    exists o, output_order iter ns order s = (s, Some o) /\ NoDup o /\ (forall e, In e o <-> boundary s ns e) /\ (forall o', order = Some o' -> o = o').
  Proof.
    intros W H [K|K]; [discriminate K|]. destruct (get_subgraph_dangling_spec iter_perm W H) as (d & E1 & Nd & Hd).
    assert (forall o, (forall e, In e o <-> boundary s ns e) -> forallb (fun e => mem e d) o && forallb (fun e => mem e o) d = true) as Hg.
    { intros o Ho. apply andb_true_iff. split; apply forallb_forall; intros e He; apply mem_In; [apply Hd, Ho, He|apply Ho, Hd, He]. }
    unfold output_order. destruct order as [o|].
    - destruct K as [No Ho]. exists o. unfold bind at 1, ret at 1, bind. rewrite E1. unfold guard. rewrite (Hg o Ho). unfold ret. split; [reflexivity|]. split; [exact No|]. split; [exact Ho|]. congruence.
    - assert (length d <= 1) as L.
      { destruct d as [|x [|y d]]; cbn; try lia. exfalso. assert (x = y) as -> by (apply K; apply Hd; cbn; auto). apply NoDup_cons_iff in Nd. apply (proj1 Nd). left; reflexivity. }
      exists d. unfold bind. rewrite E1. unfold guard. rewrite (proj2 (Nat.leb_le _ _) L). unfold ret. rewrite E1, (Hg d Hd). split; [reflexivity|]. split; [exact Nd|]. split; [exact Hd|discriminate].
  Qed.

  Definition algorithm_ok (alg : algorithm) : Prop := forall ins out sz, 2 <= length ins -> valid_path (length ins) (alg ins out sz).

  Record contracted_to s ns s' N (order : option (list eid)) (ignore : bool) : Prop := {
    co_wf : wf s';
    co_node : exists nd, s_nodes s' N = Some nd /\ NoDup (n_edges nd) /\
      (forall e, In e (n_edges nd) <-> boundary s ns e) /\
      (forall o, ignore = false -> order = Some o -> n_edges nd = o) /\
      shape (n_t nd) = map (edim s) (n_edges nd) /\
      forall a, (forall e, boundary s ns e -> a e < edim s e) -> elt (n_t nd) (map a (n_edges nd)) = netval s (nodup Nat.eq_dec ns) a;
    co_out : forall m, is_node s m -> ~ In m ns -> s_nodes s' m = s_nodes s m
  }.

  Lemma finish_ok s ns s' N order ignore o : wf s -> stands s (nodup Nat.eq_dec ns) s' [N] -> plain s' N ->
    (ignore = false -> NoDup o /\ (forall e, In e o <-> boundary s ns e) /\ forall o', order = Some o' -> o = o') ->
    exists s2, bind (if ignore then ret tt else reorder_edges N o) (fun _ => ret N) s' = (s2, Some N) /\ contracted_to s ns s2 N order ignore.
  Proof using .
    intros W H HP Ho. pose proof (sd_wf H) as W'. destruct (sd_net H) as [_ Hex]. destruct (is_node_Some (Hex N (or_introl eq_refl))) as (nd & En).
    assert (net_labels (net_of s' [N]) = n_edges nd) as El.
    { cbn [net_of map]. rewrite (fac_node En), net_labels_cons. cbn [snd net_labels flat_map]. apply app_nil_r. }
    assert (NoDup (n_edges nd)) as ND by (unfold plain, edges_at0 in HP; rewrite En in HP; exact HP).
    assert (forall e, In e (n_edges nd) <-> boundary s ns e) as Hb.
    { intros e. rewrite <- nodup_boundary, <- (cnt_boundary e W (NoDup_nodup Nat.eq_dec ns)), <- (sd_cnt H), El. split.
      - intros Hx. rewrite (NoDup_count_occ' Nat.eq_dec) in ND. apply ND. exact Hx.
      - intros Hx. apply (count_occ_In Nat.eq_dec). lia. }
    assert (shape (n_t nd) = map (edim s) (n_edges nd)) as Hsh.
    { pose proof (wf_fits W' En) as Ft. unfold fits in Ft. cbn [fst snd] in Ft. rewrite Ft. apply map_ext_in. intros x Hx. apply (sd_dim H). rewrite El. exact Hx. }
    assert (forall a, (forall e, boundary s ns e -> a e < edim s e) -> elt (n_t nd) (map a (n_edges nd)) = netval s (nodup Nat.eq_dec ns) a) as Hv.
    { intros a Ha. rewrite <- (netval_single a En ND). symmetry. apply (sd_val H). intros x Hx. apply Ha. apply nodup_boundary. apply (cnt_boundary x W (NoDup_nodup Nat.eq_dec ns)). exact Hx. }
    assert (forall m, is_node s m -> ~ In m ns -> ~ In m [N] /\ s_nodes s' m = s_nodes s m) as Hout.
    { intros m Hm1 Hm2. apply (sd_out H Hm1). rewrite nodup_In. exact Hm2. }
    destruct ignore.
    - exists s'. split; [reflexivity|]. split; [exact W'| |intros m Hm1 Hm2; apply (Hout m Hm1 Hm2)]. exists nd. repeat split; auto; try (apply Hb); discriminate.
    - destruct (Ho eq_refl) as (No & Hoi & Hoo).
      assert (Permutation o (n_edges nd)) as P by (apply NoDup_Permutation; [exact No|exact ND|]; intros e; rewrite Hoi, Hb; reflexivity).
      destruct (reorder_edges_ok W' En ND P (sd_name H (or_introl eq_refl))) as (s2 & u & E).
      exists s2. split; [unfold bind; rewrite E; reflexivity|]. destruct (reorder_edges_law W' E) as (W2 & nd0 & nd2 & K1 & K2 & K3 & _ & K5 & K6 & _). rewrite En in K1. injection K1 as <-.
      split; [exact W2| |].
      + exists nd2. split; [exact K2|]. rewrite K3. split; [exact No|]. split; [exact Hoi|]. split; [intros o' _ Eo; apply Hoo; exact Eo|]. split.
        * destruct (reorder_edges_inv E) as (nd0 & Hn & K). cbn zeta in K. destruct K as (Hp & Hoe & RP). rewrite En in Hn. injection Hn as <-. destruct RP as (_ & _ & RN & _).
          rewrite RN, Nat.eqb_refl in K2. injection K2 as <-. cbn [n_t n_edges] in *.
          transitivity (map (edim s) (gather 0 (n_edges nd) (map (fun e => nindex e (n_edges nd)) o))); [|rewrite K3; reflexivity].
          apply (@fits_transpose nat R (edim s) (n_t nd) (n_edges nd) _ 0); [intros i Hi; apply (is_perm_In i Hp); exact Hi|exact Hsh].
        * intros a Ha. rewrite K6. apply Hv. exact Ha.
      + intros m Hm1 Hm2. destruct (Hout m Hm1 Hm2) as [Q1 Q2]. rewrite K5; [exact Q2|]. intros ->. apply Q1. left; reflexivity.
  Qed.

  Theorem base_ok alg ns order ignore s : wf s -> ns <> [] -> (forall n, In n ns -> is_node s n /\ nameable s n) -> algorithm_ok alg -> order_for s ns order ignore ->
    exists s' N, base iter alg ns order ignore s = (s', Some N) /\ contracted_to s ns s' N order ignore.
  Proof.
    intros W Hne Hns Ha Ho. set (S := nodup Nat.eq_dec ns).
    assert (forall n, In n S <-> In n ns) as HS by (intros n; apply nodup_In).
    assert (stands s S s S) as H0.
    { apply stands_refl; [exact W| |]; [split; [apply NoDup_nodup|]|]; intros n Hn; apply HS in Hn; apply (Hns n Hn). }
    destruct (@get_all_edges_spec R iter iter_perm s S) as (es & Ee & _ & He); [intros n Hn; apply HS in Hn; apply (Hns n Hn)|].
    destruct (@trace_loop_ok s S es S s H0) as (s1 & S1 & E1 & H1 & L1 & HP1).
    { intros e Hin. right. apply He. exact Hin. }
    { intros n e Hn ([? k] & q & _ & <- & _ & K & _). apply He. exists n0. split; [exact Hn|]. exists k. exact K. }
    assert (exists o, (if ignore then ret [] else output_order iter ns order) s = (s, Some o) /\
              (ignore = false -> NoDup o /\ (forall e, In e o <-> boundary s ns e) /\ forall o', order = Some o' -> o = o')) as (o & Eo & Hoo).
    { destruct ignore; [exists []; split; [reflexivity|discriminate]|]. destruct (@output_order_ok s ns order W (fun n Hn => proj1 (Hns n Hn)) Ho) as (o & Q1 & Q2). exists o. split; [exact Q1|]. intros _. exact Q2. }
    unfold base. fold S. unfold bind at 1. rewrite Ee. unfold bind at 1. rewrite Eo. unfold bind at 1. rewrite E1.
    assert (S1 <> []) as HS1.
    { intros ->. destruct ns as [|n r]; [contradiction Hne; reflexivity|]. assert (In n S) as K by (apply HS; left; reflexivity). destruct S; [destruct K|discriminate L1]. }
    destruct S1 as [|n1 [|n2 S1]]; [contradiction HS1; reflexivity| |].
    - destruct (@finish_ok s ns s1 n1 order ignore o W H1 (HP1 n1 (or_introl eq_refl)) Hoo) as (s2 & Q1 & Q2). exists s2, n1. auto.
    - set (S2 := n1 :: n2 :: S1) in *. set (nodes := iter S2).
      assert (Permutation S2 nodes) as P by (symmetry; apply iter_perm).
      pose proof (stands_perm H1 P) as H2.
      destruct (@get_path_ok alg nodes s1 (sd_wf H2) (proj2 (sd_net H2))) as (ins & out & sz & Li & Ep).
      assert (valid_path (length nodes) (alg ins out sz)) as V by (rewrite <- Li; apply Ha; rewrite Li, <- (Permutation_length P); cbn; lia).
      destruct (@follow_ok s S (alg ins out sz) nodes s1 H2) as (s2 & N & Ef & H3 & P3); [intros n Hn; apply HP1; apply (Permutation_in _ (Permutation_sym P)); exact Hn|exact V|].
      unfold bind at 1. rewrite Ep. unfold bind at 1. rewrite Ef.
      destruct (@finish_ok s ns s2 N order ignore o W H3 P3 Hoo) as (s3 & Q1 & Q2). exists s3, N. auto.
  Qed.

  (** a wrong output order is refused before anything is contracted *)
  Theorem base_reject alg ns o s : wf s -> (forall n, In n ns -> is_node s n) -> ~ (forall e, In e o <-> boundary s ns e) ->
    base iter alg ns (Some o) false s = (s, None).
  Proof.
    intros W H K. destruct (@get_all_edges_spec R iter iter_perm s (nodup Nat.eq_dec ns)) as (es & Ee & _); [intros n Hn; apply H; apply nodup_In in Hn; exact Hn|].
    destruct (get_subgraph_dangling_spec iter_perm W H) as (d & E1 & Nd & Hd).
    unfold base. unfold bind at 1. rewrite Ee. unfold bind at 1. assert (output_order iter ns (Some o) s = (s, None)) as ->; [|reflexivity].
    unfold output_order. unfold bind at 1, ret at 1, bind at 1. rewrite E1. unfold bind, guard.
    destruct (forallb (fun e => mem e d) o && forallb (fun e => mem e o) d) eqn:E; [|reflexivity]. exfalso. apply K. apply andb_true_iff in E. destruct E as [A B].
    rewrite forallb_forall in A, B. intros e. split; intros He; [apply Hd, mem_In, A, He|apply mem_In, B, Hd, He].
  Qed.
  Theorem base_ambiguous alg ns s : wf s -> (forall n, In n ns -> is_node s n) -> (exists e f, e <> f /\ boundary s ns e /\ boundary s ns f) ->
    base iter alg ns None false s = (s, None).
  Proof.
    intros W H (e & f & Hef & Be & Bf). destruct (@get_all_edges_spec R iter iter_perm s (nodup Nat.eq_dec ns)) as (es & Ee & _); [intros n Hn; apply H; apply nodup_In in Hn; exact Hn|].
    destruct (get_subgraph_dangling_spec iter_perm W H) as (d & E1 & Nd & Hd).
    unfold base. unfold bind at 1. rewrite Ee. unfold bind at 1. assert (output_order iter ns None s = (s, None)) as ->; [|reflexivity].
    unfold output_order. unfold bind at 1 2. rewrite E1. unfold bind at 1, guard. apply Hd in Be. apply Hd in Bf.
    destruct d as [|x [|y d]]; [destruct Be| |reflexivity]. exfalso. destruct Be as [<-|[]]. destruct Bf as [<-|[]]. apply Hef. reflexivity.
  Qed.

  (** ** auto *)
  Theorem auto_many algs ns order ignore s : wf s -> 2 <= length ns -> (forall n, In n ns -> is_node s n /\ nameable s n) ->
    (forall k, algorithm_ok (algs k)) -> order_for s ns order ignore ->
    exists s' N, auto iter algs ns order ignore s = (s', Some N) /\ contracted_to s ns s' N order ignore.
  Proof.
    intros W L Hns Ha Ho. destruct ns as [|n1 [|n2 ns]]; try (cbn in L; lia). unfold auto.
    apply base_ok; auto. discriminate.
  Qed.

  (** ** auto on one node whose only connections are trace edges, with the output order known *)
  Lemma stands_trace_one n s e k ed a2 : wf s -> nameable s n -> slot s (n, k) = Some e -> s_edges s e = Some ed -> e_n1 ed = n -> e_2 ed = Some (n, a2) ->
    exists s1 N, contract_parallel iter e s = (s1, Some N) /\ stands s [n] s1 [N] /\ plain s1 N.
  Proof.
    intros W Hnm Hk Ed E1 E2. assert (on s n e) as Ho by (exists k; exact Hk). destruct (is_node_Some (on_node Ho)) as (nd & End).
    assert (stands s [n] s [n]) as H0.
    { apply stands_refl; [exact W| |]; [split; [repeat constructor; intros []|]|]; intros m [<-|[]]; [congruence|exact Hnm]. }
    destruct (@parallel_ok R iter iter_perm e (n, k) ed s W Hk Ed) as (s1 & N & E); [congruence| |].
    { intros m Hm. unfold ends in Hm. rewrite E2 in Hm. cbn in Hm. rewrite E1 in Hm. destruct Hm as [<-|[<-|[]]]; exact Hnm. }
    exists s1, N. split; [exact E|].
    destruct (parallel_step iter_perm W (ex_intro _ _ Hk) E) as (ed' & q & F1 & F2 & C & nd' & EN & Ek).
    rewrite Ed in F1. injection F1 as <-. rewrite E2 in F2. injection F2 as <-. rewrite E1 in C, Ek. cbn [fst] in C, Ek.
    assert (nodup Nat.eq_dec [n; n] = [n]) as Enn.
    { cbn [nodup]. destruct (in_dec Nat.eq_dec n [n]) as [|K]; [|exfalso; apply K; left; reflexivity]. reflexivity. }
    rewrite Enn in C, Ek. cbn [flat_map] in Ek. rewrite End, app_nil_r in Ek. split.
    - apply (stands_step (rest := []) H0 C); [reflexivity|]. intros x Hx. unfold contract_parallel in E. apply bind_inv in E. destruct E as (ed' & s2 & H' & E). apply get_edge_inv in H'. destruct H' as (-> & H' & _).
      rewrite Ed in H'. injection H' as <-. rewrite E2 in E. apply (between_nameable W Hx E).
    - unfold plain, edges_at0. rewrite EN, Ek. apply (NoDup_count_occ Nat.eq_dec). intros f.
      destruct (in_dec Nat.eq_dec f (shared_list s n n)) as [Ks|Ks].
      + assert (~ In f (kept_of (shared_list s n n) (n_edges nd))) as Q.
        { intros Q. unfold kept_of in Q. apply filter_In in Q. destruct Q as [_ Q]. apply negb_true_iff, mem_nIn in Q. contradiction. }
        apply (count_occ_not_In Nat.eq_dec) in Q. lia.
      + rewrite (count_kept _ Ks). destruct (le_lt_dec 2 (cnt (n_edges nd) f)) as [L|L]; [|lia]. exfalso. apply Ks.
        apply (between_self_count f End) in L. rewrite (shared_spec n f End).
        assert (on s n f) as Hf by (destruct L as ([? ?] & q & _ & <- & _ & Kf & _); eexists; exact Kf). split; [apply (on_In f End); exact Hf|].
        destruct (on_edge W Hf) as (fd & Q1 & _). exists fd. split; [exact Q1|]. apply (@joins_between _ _ _ _ _ n n W Hf Q1). exact L.
  Qed.

  Theorem auto_one algs n order ignore s : wf s -> is_node s n -> nameable s n -> (forall m e, between s n m e -> m = n) ->
    order_for s [n] order false -> (ignore = true -> order <> None) ->
    exists s' N, auto iter algs [n] order ignore s = (s', Some N) /\ contracted_to s [n] s' N order false.
  Proof.
    intros W Hn Hnm Hiso Ho Hi. unfold auto.
    assert (forall m, In m [n] -> is_node s m) as Hns by (intros m [<-|[]]; exact Hn).
    assert (forall e, boundary s [n] e <-> open_on s n e) as Hbo.
    { intros e. split; [intros (x & [<-|[]] & [K|(m & Hm & K)]); [exact K|exfalso; apply Hm; left; symmetry; apply (Hiso m e K)]|].
      intros K. exists n. split; [left; reflexivity|left; exact K]. }
    destruct (get_all_nondangling_spec iter_perm W Hns) as (nd & End & _ & Hnd). destruct (get_all_edges_spec iter_perm Hns) as (all & Eall & Nall & Hall).
    assert (exists o, (if ignore then ret order
              else match order with
                   | Some o => ret (Some o)
                   | None =>
                       bind (get_all_edges iter [n]) (fun all => bind (get_all_nondangling iter [n]) (fun nd =>
                       let d := filter (fun e => negb (mem e nd)) all in
                       bind (guard (Nat.leb (length d) 1)) (fun _ => ret (Some d))))
                   end) s = (s, Some (Some o)) /\ NoDup o /\ (forall e, In e o <-> boundary s [n] e) /\ forall o', order = Some o' -> o = o') as (o & Eo & No & Hoi & Hoo).
    { destruct Ho as [Ho|Ho]; [discriminate Ho|]. destruct order as [o|].
      - destruct Ho as [No Hoi]. exists o. split; [destruct ignore; reflexivity|]. split; [exact No|]. split; [exact Hoi|congruence].
      - destruct ignore; [exfalso; apply Hi; reflexivity|]. set (d := filter (fun e => negb (mem e nd)) all).
        assert (forall e, In e d <-> boundary s [n] e) as Hd.
        { intros e. unfold d. rewrite filter_In, negb_true_iff, mem_nIn, Hall, Hnd, Hbo. split.
          - intros [(m & [<-|[]] & K) Q]. destruct (on_edge W K) as (ed & Ed & _). destruct (kinds W K Ed) as [(_ & _ & Kd & _)|(m & a2 & _ & Kb & Hor & _ & _ & Ks)]; [exact Kd|].
            exfalso. apply Q. destruct Hor as [<-|<-]; [exists (e_n1 ed), m|exists m, (e_n1 ed)]; (split; [left; reflexivity|]); apply Ks; auto.
          - intros K. split; [exists n; split; [left; reflexivity|]; destruct K as (k & K & _); exists k; exact K|]. intros (m & l & [<-|[]] & Q).
            destruct K as (k & Kk & U). destruct Q as (p & q & Hpq & _ & _ & Q1 & Q2). apply Hpq. rewrite (U p Q1), (U q Q2). reflexivity. }
        assert (NoDup d) as Nd by (apply NoDup_filter; exact Nall).
        assert (length d <= 1) as L.
        { destruct d as [|x [|y d']]; cbn; try lia. exfalso. assert (x = y) as -> by (apply Ho; apply Hd; cbn; auto). apply NoDup_cons_iff in Nd. apply (proj1 Nd). left; reflexivity. }
        exists d. split; [|split; [exact Nd|split; [exact Hd|discriminate]]]. unfold bind. rewrite Eall, End. fold d. unfold guard. rewrite (proj2 (Nat.leb_le _ _) L). reflexivity. }
    match goal with |- exists s' N, bind ?m ?k s = _ /\ _ => assert (bind m k s = k (Some o) s) as ->; [unfold bind at 1; change (m s) with (m s); replace (m s) with (s, Some (Some o)) by (symmetry; exact Eo); reflexivity|] end.
    unfold bind at 1. rewrite End.
    assert (exists s1 N, (match nd with e :: _ => contract_parallel iter e | [] => ret n end) s = (s1, Some N) /\ stands s [n] s1 [N] /\ plain s1 N) as (s1 & N & E1 & H1 & P1).
    { destruct nd as [|e nd].
      - exists s, n. split; [reflexivity|]. split; [apply stands_refl; [exact W|split; [repeat constructor; intros []|exact Hns]|intros m [<-|[]]; exact Hnm]|].
        apply (plain_spec Hn). intros e K. apply (Hnd e). exists n, n. split; [left; reflexivity|exact K].
      - destruct (proj1 (Hnd e) (or_introl eq_refl)) as (x & m & [<-|[]] & Kb). pose proof (Hiso m e Kb) as ->.
        assert (on s n e) as K by (destruct Kb as ([? ?] & q & _ & <- & _ & Kf & _); eexists; exact Kf). destruct (on_edge W K) as (ed & Ed & _).
        destruct (kinds W K Ed) as [(_ & _ & _ & _ & Q)|(m & a2 & E2 & _ & _ & _ & _ & Q)]; [exfalso; apply (Q n n Kb)|]. apply Q in Kb. destruct K as [k Hk].
        apply (@stands_trace_one n s e k ed a2 W Hnm Hk Ed); destruct Kb as [[? ?]|[? ?]]; congruence. }
    unfold bind at 1. rewrite E1.
    destruct (@finish_ok s [n] s1 N order false o W H1 P1) as (s2 & Q1 & Q2); [intros _; auto|].
    assert (reorder_edges N o s1 = (s2, Some tt)) as E2.
    { unfold bind in Q1. destruct (reorder_edges N o s1) as [s3 [[]|]]; [injection Q1 as <-; reflexivity|discriminate Q1]. }
    assert (stands s [n] s2 [N] /\ plain s2 N) as [H2 P2].
    { destruct Q2 as [W2 (nd2 & A1 & A2 & A3 & A4 & A5 & A6) A7]. split.
      - destruct (sd_net H1) as [_ Hex]. destruct (reorder_edges_law (sd_wf H1) E2) as (_ & d1 & d2 & B1 & B2 & B3 & B4 & B5 & B6 & B7).
        assert (forall d (x : st), s_nodes x N = Some d -> net_labels (net_of x [N]) = n_edges d) as El.
        { intros d x Ex. cbn [net_of map]. rewrite (fac_node Ex), net_labels_cons. cbn [snd net_labels flat_map]. apply app_nil_r. }
        split.
        + exact W2.
        + split; [repeat constructor; intros []|]. intros m [<-|[]]. congruence.
        + intros m [<-|[]]. apply okn_nameable. apply (pres_reorder_edges E2). apply (wf_okn (sd_wf H1)). apply (sd_name H1). left; reflexivity.
        + rewrite (El _ _ B2), B3. intros x Hx. apply (sd_incl H1). rewrite (El _ _ B1). apply (Permutation_in _ B4). exact Hx.
        + intros x. rewrite (El _ _ B2), B3, <- (sd_cnt H1), (El _ _ B1), (@cnt_perm _ Nat.eq_dec _ _ x B4). reflexivity.
        + intros x Hx. rewrite (El _ _ A1) in Hx. pose proof (wf_fits W2 A1) as Ft. unfold fits in Ft. cbn [fst snd] in Ft. rewrite A5 in Ft.
          symmetry. apply (ext_in_map Ft). exact Hx.
        + intros a Ha. destruct (sd_val H1 Ha) as [C1 C2]. split.
          * intros x Hx. rewrite (El _ _ A1) in Hx. pose proof (wf_fits W2 A1) as Ft. unfold fits in Ft. cbn [fst snd] in Ft. rewrite A5 in Ft.
            assert (In x (n_edges nd2)) as Hin by (apply (count_occ_In Nat.eq_dec); lia). rewrite <- (ext_in_map Ft x Hin). apply Ha.
            apply (cnt_boundary x W); [repeat constructor; intros []|]. apply A3. exact Hin.
          * rewrite C2. apply B7. intros [].
        + intros m M1 M2. split; [|apply A7; assumption]. destruct (sd_out H1 M1 M2) as [D _]. exact D.
      - unfold plain, edges_at0. rewrite A1. exact A2. }
    destruct ignore.
    - exists s2, N. split; [unfold bind; rewrite E2; reflexivity|exact Q2].
    - destruct (@finish_ok s [n] s2 N order false o W H2 P2) as (s3 & T1 & T2); [intros _; auto|]. exists s3, N. split; [|exact T2].
      unfold bind at 1. rewrite E2. exact T1.
  Qed.

  (** ** contract_path on nodes without trace edges *)
  Lemma drop_traces_plain s ns : wf s -> (forall n, In n ns -> is_node s n /\ plain s n) -> forall es, (forall e, In e es -> exists n, In n ns /\ on s n e) -> drop_traces iter es s = (s, Some tt).
  Proof using .
    intros W Hns. induction es as [|e es IH]; intros H; cbn [drop_traces]; [reflexivity|]. destruct (H e (or_introl eq_refl)) as (n & Hn & Ho).
    destruct (on_edge W Ho) as (ed & Ed & Dd). unfold bind at 1. rewrite Ed, Dd.
    assert (is_trace_edge ed = false) as ->; [|apply IH; intros f Hf; apply H; right; exact Hf].
    destruct (Hns n Hn) as [Hn1 Hn2]. pose proof (proj1 (plain_spec Hn1) Hn2 e) as Q. unfold is_trace_edge.
    destruct (kinds W Ho Ed) as [(E2 & _)|(m & a2 & E2 & _ & Hnm & _ & _ & K)]; rewrite E2; [reflexivity|]. apply Nat.eqb_neq. intros E. apply Q, K. left. destruct Hnm; split; congruence.
  Qed.
  Lemma trace_edges_plain s n : wf s -> is_node s n -> plain s n -> contract_trace_edges iter n s = (s, Some n).
  Proof using .
    intros W Hn HP. destruct (is_node_Some Hn) as (nd & En). unfold contract_trace_edges, bind. rewrite (node_edges_ok En).
    pose proof (proj1 (plain_spec Hn) HP) as Q. assert (forall e, In e (n_edges nd) -> on s n e) as Hes by (intros e He; apply (on_In e En); exact He).
    revert Hes. generalize (n_edges nd). induction l as [|e l IH]; intros Hes; cbn [first_trace]; [reflexivity|].
    pose proof (Hes e (or_introl eq_refl)) as Ho. destruct (on_edge W Ho) as (ed & Ed & Dd). unfold bind, get_edge. rewrite Ed, Dd.
    assert (is_trace_edge ed = false) as ->; [|apply IH; intros f Hf; apply Hes; right; exact Hf]. unfold is_trace_edge.
    destruct (kinds W Ho Ed) as [(E2 & _)|(m & a2 & E2 & _ & Hnm & _ & _ & K)]; rewrite E2; [reflexivity|]. apply Nat.eqb_neq. intros E. apply (Q e), K. left. destruct Hnm; split; congruence.
  Qed.
  Theorem contract_path_ok path ns order s : wf s -> NoDup ns -> (forall n, In n ns -> is_node s n /\ nameable s n) ->
    (forall n e, In n ns -> ~ between s n n e) -> valid_path (length ns) path -> NoDup order -> (forall e, In e order <-> boundary s ns e) ->
    exists s' N, contract_path iter path ns order s = (s', Some N) /\ contracted_to s ns s' N (Some order) false.
  Proof.
    intros W ND Hns Hnt V No Ho.
    assert (forall n, In n ns -> plain s n) as HP by (intros n Hn; apply (plain_spec (proj1 (Hns n Hn))); intros e; apply Hnt; exact Hn).
    assert (nodup Nat.eq_dec ns = ns) as En by (apply nodup_fixed_point; exact ND).
    assert (stands s ns s ns) as H0 by (apply stands_refl; [exact W|split; [exact ND|]|]; intros n Hn; apply (Hns n Hn)).
    destruct (@get_all_edges_spec R iter iter_perm s ns (fun n Hn => proj1 (Hns n Hn))) as (es & Ee & _ & He).
    destruct (follow_ok H0 HP V) as (s1 & N & Ef & H1 & P1).
    destruct (sd_net H1) as [_ Hex].
    unfold contract_path. unfold bind at 1. rewrite Ee. unfold bind at 1. rewrite (@drop_traces_plain s ns W (fun n Hn => conj (proj1 (Hns n Hn)) (HP n Hn)) es); [|intros e Hin; apply He; exact Hin].
    unfold bind at 1. rewrite Ef. unfold bind at 1. rewrite (trace_edges_plain (sd_wf H1) (Hex N (or_introl eq_refl)) P1).
    rewrite <- En in H1. destruct (@finish_ok s ns s1 N (Some order) false order W H1 P1) as (s2 & Q1 & Q2); [intros _; split; [exact No|]; split; [exact Ho|congruence]|].
    exists s2, N. auto.
  Qed.
End PF.

(** any two paths (and set orders) give the same tensor *)
Lemma map_nth_seq (l : list nat) : map (fun k => nth k l 0) (seq 0 (length l)) = l.
Proof.
  apply nth_ext with (d := 0) (d' := 0); [rewrite map_length; apply seq_length|]. intros i Hi. rewrite map_length, seq_length in Hi.
  rewrite (nth_indep _ 0 (nth 0 l 0)) by (rewrite map_length, seq_length; exact Hi). rewrite (map_nth (fun k => nth k l 0)). rewrite seq_nth by exact Hi. reflexivity.
Qed.
Theorem base_agree (R : csr) (iter1 iter2 : list nat -> list nat)
    (iter_perm1 : forall l, Permutation (iter1 l) l) (iter_perm2 : forall l, Permutation (iter2 l) l)
    alg1 alg2 ns o (s : @st R) :
  wf s -> ns <> [] -> (forall n, In n ns -> is_node s n /\ nameable s n) -> algorithm_ok alg1 -> algorithm_ok alg2 -> order_for s ns (Some o) false ->
  exists s1 N1 d1 s2 N2 d2, base iter1 alg1 ns (Some o) false s = (s1, Some N1) /\ base iter2 alg2 ns (Some o) false s = (s2, Some N2) /\
    s_nodes s1 N1 = Some d1 /\ s_nodes s2 N2 = Some d2 /\ n_edges d1 = o /\ n_edges d2 = o /\ teq (n_t d1) (n_t d2).
Proof.
  intros W Hne Hns A1 A2 Ho.
  destruct (base_ok iter_perm1 W Hne Hns A1 Ho) as (s1 & N1 & E1 & [_ (d1 & H1 & _ & B1 & O1 & S1 & V1) _]).
  destruct (base_ok iter_perm2 W Hne Hns A2 Ho) as (s2 & N2 & E2 & [_ (d2 & H2 & _ & B2 & O2 & S2 & V2) _]).
  specialize (O1 o eq_refl eq_refl). specialize (O2 o eq_refl eq_refl). rewrite O1 in *. rewrite O2 in *.
  exists s1, N1, d1, s2, N2, d2. repeat (split; [first [exact E1|exact E2|exact H1|exact H2|exact O1|exact O2|reflexivity]|]).
  split; [congruence|]. intros ix Hix. rewrite S1 in Hix.
  destruct Ho as [Ho|[No _]]; [discriminate Ho|].
  set (a := fun e => nth (nindex e o) ix 0).
  assert (map a o = ix) as Ea.
  { unfold a. rewrite <- (map_map (fun e => nindex e o) (fun k => nth k ix 0)), (map_nindex_self No).
    apply valid_length in Hix. rewrite map_length in Hix. rewrite <- Hix. apply map_nth_seq. }
  assert (forall e, boundary s ns e -> a e < edim s e) as Ha.
  { intros e He. apply B1 in He. rewrite <- Ea in Hix. apply (valid_map_asg_inv Hix He). }
  rewrite <- Ea, (V1 a Ha), (V2 a Ha). reflexivity.
Qed.
