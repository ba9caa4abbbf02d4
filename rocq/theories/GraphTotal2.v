(** * GraphTotal2: contract_between and contract_parallel succeed *)
From Verif Require Import Prelude Algebra Tensor TensorFacts Einsum EinsumFacts NetworkFacts Graph GraphBase GraphContract GraphOps GraphValue GraphOuter GraphConnect GraphRetail GraphFlatten GraphBetween GraphTrace GraphLaws GraphTotal GraphNames.
Set Implicit Arguments.
Unset Strict Implicit.

Section GTot2.
  Context {R : csr}.
  Notation st := (@st R).
  Notation node := (@node R).
  Implicit Types (s : st) (e : eid).
  Notation "x <- m ;; k" := (bind m (fun x => k)) (at level 61, m at next level, right associativity).
  Notation "m ;;; k" := (bind m (fun _ => k)) (at level 61, right associativity).

  (** an edge order the caller may request: none, or the remaining edges without repetition *)
  Definition order_ok (order rest : list eid) : Prop := order = [] \/ (NoDup order /\ Permutation order rest).

  Lemma classify_ok n1 n2 shared s : forall order i,
    (forall e, In e order -> ~ In e shared /\ exists ed, s_edges s e = Some ed /\ e_dis ed = false /\ exists k, In (n1, k) (ends ed) \/ In (n2, k) (ends ed)) ->
    exists q, classify n1 n2 shared i order s = (s, Some q).
  Proof.
    induction order as [|e r IH]; intros i H; cbn [classify]; [eexists; reflexivity|].
    destruct (H e (or_introl eq_refl)) as (Hn & ed & E & D & k & Hk). apply mem_nIn in Hn.
    destruct (IH (S i)) as (q & Hq); [intros c Hc; apply H; right; exact Hc|].
    unfold bind at 1. rewrite Hn. cbn [negb guard]. unfold ret at 1. unfold bind at 1. rewrite E, D. cbv zeta.
    destruct (mem n1 (map fst (ends ed))) eqn:M1; [unfold bind; rewrite Hq; eexists; reflexivity|].
    destruct (mem n2 (map fst (ends ed))) eqn:M2; [unfold bind; rewrite Hq; eexists; reflexivity|].
    exfalso. apply mem_nIn in M1, M2. destruct Hk as [Hk|Hk]; [apply M1|apply M2]; apply in_map_iff; [exists (n1, k)|exists (n2, k)]; auto.
  Qed.

  Lemma In_gather_perm (l ix : list nat) x : is_perm (length l) ix -> (In x (gather 0 l ix) <-> In x l).
  Proof. intros H. pose proof (gather_perm 0 H) as P. split; apply Permutation_in; [|symmetry]; exact P. Qed.

  Lemma pair_front_ok n1 n2 d1 d2 ao order cut s :
    wf s -> n1 <> n2 -> s_nodes s n1 = Some d1 -> s_nodes s n2 = Some d2 -> Permutation cut (shared_list s n1 n2) ->
    nameable s n1 -> nameable s n2 -> (cut = [] -> ao = true) -> order_ok order (kept_of cut (n_edges d1) ++ kept_of cut (n_edges d2)) ->
    succ (pair_front n1 n2 d1 d2 ao order cut) s.
  Proof.
    intros W Hne Hn1 Hn2 Pc N1 N2 Ha Ho. unfold pair_front.
    assert (NoDup cut) as Nc by (apply (Permutation_NoDup (Permutation_sym Pc)); unfold shared_list; rewrite Hn1; apply NoDup_nodup).
    assert (forall e, In e cut <-> In e (shared_list s n1 n2)) as Ic by (intros e; split; apply Permutation_in; [|symmetry]; exact Pc).
    destruct cut as [|c0 cr] eqn:Ecut.
    - apply succ_guard; [auto|]. apply (outer_ok (names := None) W Hne Hn1 Hn2 I N1 N2).
    - rewrite <- Ecut in *. clear c0 cr Ecut Ha. eapply succ_bind; [reflexivity|].
      assert (exists sw, (match order with [] => ret false | _ => q <- classify n1 n2 cut 0 order ;; ret (negb (Nat.eqb (length (fst q)) 0) && negb (Nat.eqb (length (snd q)) 0) && mean_gt (fst q) (snd q)) end) s = (s, Some sw)) as (sw & Hsw).
      { destruct order as [|o r] eqn:Eo; [eexists; reflexivity|]. rewrite <- Eo in *. destruct Ho as [Ho|[_ Ho]]; [congruence|].
        destruct (@classify_ok n1 n2 cut s order 0) as (q & Hq); [|unfold bind; rewrite Hq; eexists; reflexivity].
        intros e He. apply (Permutation_in _ Ho) in He. apply in_app_or in He. destruct He as [He|He]; apply filter_In in He; destruct He as [He Hm]; apply negb_true_iff, mem_nIn in Hm;
          (split; [exact Hm|]); apply In_nth_error in He; destruct He as [k Hk]; [destruct (wf_end W Hn1 Hk) as (ed & E & D & Hi)|destruct (wf_end W Hn2 Hk) as (ed & E & D & Hi)];
          exists ed; (split; [exact E|]; split; [exact D|]); exists k; auto. }
      apply (succ_bind Hsw). clear Hsw. cbv zeta.
      assert (forall e, In e cut -> exists i j, nth_error (n_edges d1) i = Some e /\ nth_error (n_edges d2) j = Some e /\ orient n1 s e = (i, j) /\
                (forall k, slot s (n1, k) = Some e -> k = i) /\ (forall k, slot s (n2, k) = Some e -> k = j)) as Hor.
      { intros e He. apply Ic in He. apply (shared_spec n2 e Hn1) in He. destruct He as (Hin & ed & E & J).
        apply In_nth_error in Hin. destruct Hin as [k Hk].
        destruct (two_ends W Hne (ex_intro _ (n1, k) (slot_intro Hn1 Hk)) E J) as (i & j & S1 & S2 & O & Q).
        exists i, j. apply slot_node in S1, S2. destruct S1 as (x1 & X1 & S1). destruct S2 as (x2 & X2 & S2).
        rewrite Hn1 in X1. rewrite Hn2 in X2. injection X1 as <-. injection X2 as <-. repeat (split; [assumption|]). exact Q. }
      assert (forall e, In e cut -> exists ed, s_edges s e = Some ed /\ joins ed n1 n2 = true /\ e < s_ne s) as Hj.
      { intros e He. apply Ic in He. apply (shared_spec n2 e Hn1) in He. destruct He as (Hin & ed & E & J). exists ed. split; [exact E|]. split; [exact J|]. apply (node_edge_lt W Hn1 Hin). }
      assert (forall j, j < length (n_edges d1) -> (In j (map fst (map (orient n1 s) cut)) <-> In (nth j (n_edges d1) 0) cut)) as B1.
      { intros j Lj. rewrite map_map. split.
        - intros K. apply in_map_iff in K. destruct K as (e & <- & He). destruct (Hor e He) as (i & k & K1 & _ & -> & _). cbn [fst]. rewrite (nth_error_nth _ _ 0 K1). exact He.
        - intros K. apply in_map_iff. exists (nth j (n_edges d1) 0). split; [|exact K]. destruct (Hor _ K) as (i & k & K1 & _ & -> & Q & _). cbn [fst].
          symmetry. apply Q. apply (slot_intro Hn1); apply nth_error_nth'; exact Lj. }
      assert (forall j, j < length (n_edges d2) -> (In j (map snd (map (orient n1 s) cut)) <-> In (nth j (n_edges d2) 0) cut)) as B2.
      { intros j Lj. rewrite map_map. split.
        - intros K. apply in_map_iff in K. destruct K as (e & <- & He). destruct (Hor e He) as (i & k & _ & K2 & -> & _). cbn [snd]. rewrite (nth_error_nth _ _ 0 K2). exact He.
        - intros K. apply in_map_iff. exists (nth j (n_edges d2) 0). split; [|exact K]. destruct (Hor _ K) as (i & k & _ & K2 & -> & _ & Q). cbn [snd].
          symmetry. apply Q. apply (slot_intro Hn2); apply nth_error_nth'; exact Lj. }
      assert (NoDup (map fst (map (orient n1 s) cut))) as D1.
      { rewrite map_map. apply NoDup_map_in; [|exact Nc]. intros a b Ha Hb K. destruct (Hor a Ha) as (i & j & K1 & _ & O1 & _). destruct (Hor b Hb) as (i' & j' & K1' & _ & O1' & _).
        rewrite O1, O1' in K. cbn [fst] in K. subst i'. congruence. }
      assert (NoDup (map snd (map (orient n1 s) cut))) as D2.
      { rewrite map_map. apply NoDup_map_in; [|exact Nc]. intros a b Ha Hb K. destruct (Hor a Ha) as (i & j & _ & K1 & O1 & _). destruct (Hor b Hb) as (i' & j' & _ & K1' & O1' & _).
        rewrite O1, O1' in K. cbn [snd] in K. subst j'. congruence. }
      pose proof (sort_ind_perm D1) as Q1. pose proof (sort_ind_perm D2) as Q2.
      assert (length (map fst (map (orient n1 s) cut)) = length (map snd (map (orient n1 s) cut))) as Ll by (rewrite !map_length; reflexivity).
      destruct sw.
      + apply pair_ok; auto.
        * intros j Lj. rewrite In_gather_perm by exact Q2. apply B2. exact Lj.
        * intros j Lj. rewrite In_gather_perm by (rewrite Ll; exact Q2). apply B1. exact Lj.
        * intros e He. destruct (Hj e He) as (ed & E & J & L). exists ed. rewrite joins_sym. auto.
        * exact I.
      + apply pair_ok; auto.
        * intros j Lj. rewrite In_gather_perm by exact Q1. apply B1. exact Lj.
        * intros j Lj. rewrite In_gather_perm by (rewrite <- Ll; exact Q1). apply B2. exact Lj.
        * exact I.
  Qed.

  Section Iter.
  Variable iter : list nat -> list nat.
  Hypothesis iter_perm : forall l, Permutation (iter l) l.

  Lemma kept_perm cut cut' es : Permutation cut cut' -> kept_of cut es = kept_of cut' es.
  Proof.
    intros P. unfold kept_of. apply filter_ext. intros e. f_equal.
    destruct (mem e cut) eqn:E1, (mem e cut') eqn:E2; auto.
    - apply mem_In in E1. apply (Permutation_in _ P) in E1. apply mem_In in E1. congruence.
    - apply mem_In in E2. apply (Permutation_in _ (Permutation_sym P)) in E2. apply mem_In in E2. congruence.
  Qed.

  (** the edges contract_between leaves on the new node *)
  Definition rest_of s (n1 n2 : nid) : list eid :=
    flat_map (fun n => match s_nodes s n with Some nd => kept_of (shared_list s n1 n2) (n_edges nd) | None => [] end) (nodup Nat.eq_dec [n1; n2]).

  Lemma okn_nameable n s : okn n s -> nameable s n.
  Proof. intros H nd E. apply (H nd E). Qed.
  Lemma wf_okn s n : wf s -> nameable s n -> okn n s.
  Proof. intros W N nd E. split; [apply (wf_rank W E)|apply (N nd E)]. Qed.

  Lemma between_finish_ok s1 N nd order names : wf s1 -> s_nodes s1 N = Some nd -> nameable s1 N -> (order = [] \/ (NoDup order /\ Permutation order (n_edges nd))) ->
    names_fit names (length (n_edges nd)) ->
    succ ((match order with [] => ret tt | _ => reorder_edges N order end) ;;;
     (match names with
      | None => ret tt
      | Some l =>
         nd <- get_node N ;;
         guard (nodupb l && Nat.eqb (length l) (rank (n_t nd))) ;;;
         set_node N (Node (n_t nd) (n_edges nd) l)
      end) ;;;
     ret N) s1.
  Proof.
    intros W Hn Nm Ho Hf.
    assert (succ (match order with [] => ret tt | _ => reorder_edges N order end) s1) as Hs.
    { destruct order as [|o r] eqn:Eo; [apply succ_ret|]. rewrite <- Eo in *. destruct Ho as [Ho|[Nd P]]; [congruence|].
      apply (reorder_edges_ok W Hn); [|exact P|exact Nm]. apply (Permutation_NoDup P Nd). }
    apply (succ_bind' Hs). intros s2 u H2.
    assert (exists nd2, s_nodes s2 N = Some nd2 /\ rank (n_t nd2) = length (n_edges nd)) as (nd2 & Hn2 & Hr).
    { destruct order as [|o r] eqn:Eo; [injection H2 as <- _; exists nd; split; [exact Hn|symmetry; apply (wf_rank W Hn)]|].
      apply reorder_edges_inv in H2. destruct H2 as (nd0 & K & Hp & _ & (_ & _ & R3 & _)). rewrite Hn in K. injection K as <-.
      specialize (R3 N). rewrite Nat.eqb_refl in R3. eexists. split; [exact R3|]. unfold rank. cbn [n_t shape transpose]. rewrite gather_length. apply (is_perm_length Hp). }
    destruct names as [l|]; [|eapply succ_bind; [reflexivity|apply succ_ret]].
    destruct Hf as [Nl Ll]. apply succ_bind' with (m := bind (get_node N) _); [|intros; apply succ_ret].
    apply (succ_get_node Hn2). apply succ_guard; [|eexists; eexists; reflexivity].
    rewrite (nodupb_true Nl), Ll, Hr, Nat.eqb_refl. reflexivity.
  Qed.

  Lemma between_ok n1 n2 ao order names s d1 d2 : wf s -> s_nodes s n1 = Some d1 -> s_nodes s n2 = Some d2 -> nameable s n1 -> nameable s n2 ->
    (shared_list s n1 n2 = [] -> n1 <> n2 /\ ao = true) ->
    order_ok order (rest_of s n1 n2) -> names_fit names (length (rest_of s n1 n2)) ->
    succ (contract_between iter n1 n2 ao order names) s.
  Proof using iter_perm.
    intros W Hn1 Hn2 N1 N2 Hsh Ho Hf.
    unfold contract_between. apply (succ_get_node Hn1). apply (succ_get_node Hn2).
    eapply succ_bind; [unfold get_shared_edges, bind, get_node; rewrite Hn1; reflexivity|].
    pose proof (iter_perm (shared_list s n1 n2)) as Pc. set (cut := iter (shared_list s n1 n2)) in *. clearbody cut.
    destruct (Nat.eqb_spec n1 n2) as [<-|Hne].
    - rewrite Hn1 in Hn2. injection Hn2 as <-.
      assert (cut <> []) as Hc0. { intros K. rewrite K in Pc. apply Permutation_nil in Pc. destruct (Hsh Pc) as [X _]. congruence. }
      assert (NoDup cut) as Nc by (apply (Permutation_NoDup (Permutation_sym Pc)); unfold shared_list; rewrite Hn1; apply NoDup_nodup).
      assert (forall c, In c cut -> (exists x, slot s x = Some c) /\ exists ed, s_edges s c = Some ed /\ e_dis ed = false /\ edge_set_is ed n1 (Some n1) = true) as Hd.
      { intros c Hc. apply (Permutation_in _ Pc) in Hc. apply (shared_spec n1 c Hn1) in Hc. destruct Hc as (Hin & ed & E & J). apply set_joins in J. destruct J as [J D].
        apply In_nth_error in Hin. destruct Hin as [k Hk]. split; [exists (n1, k); apply (slot_intro Hn1 Hk)|]. exists ed. auto. }
      assert (succ (match cut with [] => fail | _ => e <- flatten_edges iter cut ;; contract e None end) s) as Hfr.
      { destruct cut as [|c0 cr] eqn:Ec; [congruence|]. rewrite <- Ec in *.
        apply succ_bind'; [apply (flatten_edges_ok iter_perm W Hc0 Nc Hd N1); intros v [= <-]; exact N1|].
        intros s1 f H1. pose proof (@pres_flatten_edges R iter n1 cut s s1 f H1 (wf_okn W N1)) as O1.
        destruct (flatten_edges_post iter_perm W (fun c Hc => proj1 (Hd c Hc)) H1) as [[Ef ->]|(P & mult & F & Hm)].
        - destruct (Hd f) as ((x & Hx) & ed & E & D & S); [rewrite Ef; left; reflexivity|].
          destruct (edge_set_ends S D) as [(K & _)|(v & m & a & K & E2 & Hor)]; [discriminate|]. injection K as <-.
          assert (e_n1 ed = n1 /\ m = n1) as [K1 K2] by (destruct Hor as [[? ?]|[? ?]]; auto). subst m.
          apply (contract_ok (names := None) W Hx E); [congruence| |intros; exact I].
          intros n Hn. unfold ends in Hn. rewrite E2 in Hn. cbn in Hn. rewrite K1 in Hn. destruct Hn as [<-|[<-|[]]]; exact N1.
        - assert (P = [n1] /\ mult = 2) as [-> ->].
          { assert (In c0 cut) as Hc by (rewrite Ec; left; reflexivity). destruct (Hd c0 Hc) as (_ & ed & E & D & S).
            destruct (edge_set_ends S D) as [(K & _)|(v & m & a & K & E2 & Hor)]; [discriminate|]. injection K as <-.
            assert (e_n1 ed = n1 /\ m = n1) as [K1 K2] by (destruct Hor as [[? ?]|[? ?]]; auto). subst m.
            destruct Hm as [(_ & n & _ & Hm)|[(-> & n & -> & Hm)|(_ & u & v & _ & Huv & Hm)]].
            - destruct (Hm c0 Hc) as (a' & E'). rewrite E in E'. injection E' as ->. discriminate E2.
            - destruct (Hm c0 Hc) as (ed' & E' & J). rewrite E in E'. injection E' as <-. apply set_joins in J. destruct J as [J _].
              destruct (edge_set_ends J D) as [(K & _)|(v & m & b & K & E3 & Hor')]; [discriminate|]. injection K as <-.
              assert (n1 = n) as -> by (destruct Hor' as [[? ?]|[? ?]]; congruence). auto.
            - destruct (Hm c0 Hc) as (ed' & E' & J). rewrite E in E'. injection E' as <-. apply set_joins in J. destruct J as [J _].
              destruct (edge_set_ends J D) as [(K & _)|(v' & m & b & K & E3 & Hor')]; [discriminate|]. injection K as <-. destruct Hor' as [[? ?]|[? ?]]; congruence. }
          destruct (fl_ends F) as (ed & E & Pe). cbn [Nat.eqb] in Pe.
          destruct (fl_nodes F (n := n1) ltac:(left; reflexivity)) as (nd & nd' & _ & Hn' & En').
          assert (slot s1 (n1, length (kept_of cut (n_edges nd))) = Some f) as Hsl.
          { apply (slot_intro Hn'). rewrite En'. rewrite nth_error_app2 by lia. rewrite Nat.sub_diag. reflexivity. }
          apply (contract_ok (names := None) (fl_wf F) Hsl E); [| |intros; exact I].
          + intros K. apply Permutation_length in Pe. unfold ends in Pe. rewrite K in Pe. discriminate Pe.
          + intros n Hn. apply (Permutation_in _ Pe) in Hn. destruct Hn as [<-|[<-|[]]]; apply okn_nameable; exact O1. }
      assert (forall n, pres n (match cut with [] => @fail R nid | _ => e <- flatten_edges iter cut ;; contract e None end)) as Hpr.
      { intros n. destruct cut; [apply pres_fail|]. apply pres_bind; [apply pres_flatten_edges|]. intros e. apply pres_contract. }
      apply succ_bind'; [exact Hfr|]. intros s1 N H1. pose proof (Hpr N s s1 N H1) as HN.
      destruct (@trace_all R iter iter_perm n1 cut s s1 N W Hc0) as (C & nd & nd1 & K1 & HN1 & EN).
      { intros c Hc. destruct (Hd c Hc) as (X & ed & E & D & S). split; [exact X|]. exists ed. split; [exact E|]. apply joins_set; assumption. }
      { destruct cut; [congruence|]. exact H1. }
      rewrite Hn1 in K1. injection K1 as <-.
      assert (rest_of s n1 n1 = n_edges nd1) as Er.
      { unfold rest_of. assert (nodup Nat.eq_dec [n1; n1] = [n1]) as ->.
        { cbn [nodup]. destruct (in_dec Nat.eq_dec n1 [n1]) as [|K]; [|exfalso; apply K; left; reflexivity]. reflexivity. }
        cbn [flat_map]. rewrite Hn1, app_nil_r, EN. symmetry. apply kept_perm. exact Pc. }
      apply (between_finish_ok (ct_wf C) HN1).
      { apply okn_nameable. apply HN. intros nd0 K. rewrite (ct_new C) in K. discriminate K. }
      { rewrite <- Er. exact Ho. }
      { rewrite <- Er. exact Hf. }
    - assert (rest_of s n1 n2 = kept_of cut (n_edges d1) ++ kept_of cut (n_edges d2)) as Er.
      { unfold rest_of. assert (nodup Nat.eq_dec [n1; n2] = [n1; n2]) as ->.
        { apply nodup_fixed_point. constructor; [intros [K|[]]; congruence|]. repeat constructor. intros []. }
        cbn [flat_map]. rewrite Hn1, Hn2, app_nil_r.
        rewrite (kept_perm _ Pc), (kept_perm _ Pc). reflexivity. }
      rewrite Er in Ho, Hf.
      apply succ_bind'; [apply (@pair_front_ok n1 n2 d1 d2 ao order cut s W Hne Hn1 Hn2 Pc N1 N2)|].
      + intros K. rewrite K in Pc. apply Permutation_nil in Pc. apply (Hsh Pc).
      + exact Ho.
      + intros s1 N H1. destruct (@between_mid R iter n1 n2 d1 d2 ao order cut s s1 N W Hne Hn1 Hn2 Pc H1) as (C & nd & Hnd & Pnd & End).
        assert (pres N (pair_front n1 n2 d1 d2 ao order cut)) as Hpr.
        { unfold pair_front. destruct cut as [|c r]; [apply pres_bind; [apply pres_guard|]; intros _; apply pres_outer|].
          apply pres_bind; [apply pres_read|]. intros axes. apply pres_bind.
          - destruct order as [|o r']; [apply pres_ret|]. apply pres_bind; [apply pres_classify|]. intros x. apply pres_ret.
          - intros swap. cbv zeta. apply pres_bind; [apply pres_new_node|]. intros N'. apply pres_bind; [apply pres_remove_edges|]. intros _. apply pres_ret. }
        apply (between_finish_ok (ct_wf C) Hnd).
        * apply okn_nameable. apply (Hpr s s1 N H1). intros nd0 K. rewrite (ct_new C) in K. discriminate K.
        * destruct Ho as [Ho|[Ho1 Ho2]]; [left; exact Ho|right]. split; [exact Ho1|]. rewrite Ho2. symmetry. exact Pnd.
        * rewrite (Permutation_length Pnd), app_length. rewrite app_length in Hf. exact Hf.
  Qed.

  (** the new node has a name for each axis again *)
  Lemma between_nameable n1 n2 ao order names s s' N n : wf s -> nameable s n -> contract_between iter n1 n2 ao order names s = (s', Some N) -> nameable s' n.
  Proof. intros W Nm H. apply okn_nameable. apply (@pres_between R iter n n1 n2 ao order names s s' N H). apply wf_okn; assumption. Qed.

  Lemma parallel_ok e p ed s : wf s -> slot s p = Some e -> s_edges s e = Some ed -> e_2 ed <> None -> (forall n, In n (map fst (ends ed)) -> nameable s n) ->
    succ (contract_parallel iter e) s.
  Proof using iter_perm.
    intros W Hs E E2 Nm. unfold contract_parallel. destruct (wf_slot W Hs) as (ed' & K & D & _). rewrite E in K. injection K as <-. apply (succ_get_edge E D).
    destruct (e_2 ed) as [[n2 a2]|] eqn:E2'; [|congruence].
    assert (slot s (e_n1 ed, e_a1 ed) = Some e /\ slot s (n2, a2) = Some e) as [S1 S2].
    { split; apply (ends_live W Hs E); unfold ends; rewrite E2'; [left|right; left]; reflexivity. }
    pose proof (slot_node S1) as (d1 & Hn1 & I1). pose proof (slot_node S2) as (d2 & Hn2 & _). cbn [fst snd] in *.
    apply (between_ok (d1 := d1) (d2 := d2) W Hn1 Hn2).
    - apply Nm. unfold ends. left. reflexivity.
    - apply Nm. unfold ends. rewrite E2'. right. left. reflexivity.
    - intros K. exfalso. assert (In e (shared_list s (e_n1 ed) n2)) as X; [|rewrite K in X; destruct X].
      apply (shared_spec n2 e Hn1). split; [apply (nth_error_In _ _ I1)|]. exists ed. split; [exact E|]. unfold joins. rewrite D, E2', !Nat.eqb_refl. reflexivity.
    - left. reflexivity.
    - exact I.
  Qed.
  End Iter.
End GTot2.
