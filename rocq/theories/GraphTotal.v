(** * GraphTotal: the contraction, reordering and flattening calls succeed *)
From Verif Require Import Prelude Algebra Tensor TensorFacts Einsum EinsumFacts NetworkFacts Graph GraphBase GraphContract GraphOps GraphValue GraphOuter GraphConnect GraphRetail GraphFlatten GraphBetween GraphTrace GraphLaws.
Set Implicit Arguments.
Unset Strict Implicit.

Section GTot.
  Context {R : csr}.
  Notation st := (@st R).
  Notation node := (@node R).
  Implicit Types (s : st) (e : eid).
  Notation "x <- m ;; k" := (bind m (fun x => k)) (at level 61, m at next level, right associativity).
  Notation "m ;;; k" := (bind m (fun _ => k)) (at level 61, right associativity).

  (** every axis of the node has a name *)
  Definition nameable s (n : nid) : Prop := forall nd, s_nodes s n = Some nd -> length (n_edges nd) <= length (n_names nd).

  Definition succ {A} (m : @M R A) s : Prop := exists s' x, m s = (s', Some x).
  Lemma succ_bind A B (m : @M R A) (k : A -> @M R B) s s1 x : m s = (s1, Some x) -> succ (k x) s1 -> succ (bind m k) s.
  Proof. intros H (s' & y & K). exists s', y. unfold bind. rewrite H. exact K. Qed.
  Lemma succ_bind' A B (m : @M R A) (k : A -> @M R B) s : succ m s -> (forall s1 x, m s = (s1, Some x) -> succ (k x) s1) -> succ (bind m k) s.
  Proof. intros (s1 & x & H) K. apply (succ_bind H). apply K. exact H. Qed.
  Lemma succ_ret A (x : A) s : succ (ret x) s.
  Proof. exists s, x. reflexivity. Qed.
  Lemma succ_guard A b (k : unit -> @M R A) s : b = true -> succ (k tt) s -> succ (bind (guard b) k) s.
  Proof. intros -> H. apply (@succ_bind _ _ _ _ s s tt); [reflexivity|exact H]. Qed.
  Lemma succ_get_node A n nd (k : node -> @M R A) s : s_nodes s n = Some nd -> succ (k nd) s -> succ (bind (get_node n) k) s.
  Proof. intros E H. apply (@succ_bind _ _ _ _ s s nd); [unfold get_node; rewrite E; reflexivity|exact H]. Qed.
  Lemma succ_get_edge A e ed (k : edge -> @M R A) s : s_edges s e = Some ed -> e_dis ed = false -> succ (k ed) s -> succ (bind (get_edge e) k) s.
  Proof. intros E D H. apply (@succ_bind _ _ _ _ s s ed); [unfold get_edge; rewrite E, D; reflexivity|exact H]. Qed.

  (** *** edge ends *)
  Definition evolves s s' : Prop := s_nodes s' = s_nodes s /\ s_nn s' = s_nn s /\ s_ne s' = s_ne s /\
    forall e ed, s_edges s e = Some ed -> exists ed', s_edges s' e = Some ed' /\ (e_2 ed = None -> e_2 ed' = None).

  Lemma app1_keeps ed o n q : In q (ends ed) -> q <> o -> In q (ends (app1 ed o n)).
  Proof.
    intros H Hne. unfold app1. destruct (slot_eqb_spec (e_n1 ed, e_a1 ed) o) as [E|E].
    - unfold ends in *. cbn [e_n1 e_a1 e_2 In] in *. destruct H as [H|H]; [congruence|right; exact H].
    - destruct (e_2 ed) as [p|] eqn:E2; [|exact H]. destruct (slot_eqb_spec p o) as [K|K]; [|exact H].
      unfold ends in *. rewrite E2 in H. cbn [e_n1 e_a1 e_2 In] in *. destruct H as [H|[H|[]]]; [left; exact H|congruence].
  Qed.
  Lemma app1_dis ed o n : e_dis ed = false -> e_dis (app1 ed o n) = false.
  Proof. intros H. unfold app1. destruct (slot_eqb _ _); [reflexivity|]. destruct (e_2 ed) as [p|]; [|exact H]. destruct (slot_eqb p o); [reflexivity|exact H]. Qed.
  Lemma app1_dangling ed o n : e_2 ed = None -> e_2 (app1 ed o n) = None.
  Proof. intros H. unfold app1. rewrite H. destruct (slot_eqb _ _); [reflexivity|exact H]. Qed.
  Lemma app_moves_dangling ml : forall ed, e_2 ed = None -> e_2 (app_moves ml ed) = None.
  Proof. induction ml as [|m r IH]; intros ed H; [exact H|]. cbn [app_moves fold_left]. apply IH. apply app1_dangling. exact H. Qed.

  Lemma steps_ok mv : forall s, NoDup (map (fun m => (fst m, fst (snd m))) mv) ->
    (forall e o n, In (e, (o, n)) mv -> exists ed, s_edges s e = Some ed /\ e_dis ed = false /\ In o (ends ed)) ->
    exists s', steps mv s = (s', Some tt).
  Proof.
    induction mv as [|[f [o n]] r IH]; intros s Nd H; [exists s; reflexivity|]. cbn [steps mfor]. cbn [map fst snd] in Nd. apply NoDup_cons_iff in Nd. destruct Nd as [Nin Nd].
    destruct (H f o n (or_introl eq_refl)) as (ed & E & D & I). unfold bind. cbn [fst snd]. rewrite (@update_axis_ok _ f o n s ed E D I).
    apply IH; [exact Nd|]. intros e o' n' Hin. destruct (H e o' n' (or_intror Hin)) as (ed' & E' & D' & I').
    unfold with_edge. cbn [s_edges]. unfold upd. destruct (Nat.eq_dec e f) as [->|Hne]; [|eauto].
    rewrite E in E'. injection E' as <-. exists (app1 ed o n). split; [reflexivity|]. split; [apply app1_dis; exact D|].
    apply app1_keeps; [exact I'|]. intros ->. apply Nin. apply in_map_iff. exists (f, (o, n')). auto.
  Qed.
  Lemma steps_evolves mv s s' (x : unit) : steps mv s = (s', Some x) -> evolves s s'.
  Proof.
    intros H. apply steps_inv in H. destruct H as (A & B & C & D). split; [exact A|]. split; [exact B|]. split; [exact C|].
    intros e ed E. rewrite D, E. cbn [option_map]. eexists. split; [reflexivity|]. apply app_moves_dangling.
  Qed.
  Lemma steps_app a b s s' : steps (a ++ b) s = (s', Some tt) -> exists s1, steps a s = (s1, Some tt) /\ steps b s1 = (s', Some tt).
  Proof.
    revert s. induction a as [|m r IH]; intros s H; [exists s; auto|]. cbn [app steps mfor] in *. apply bind_inv in H.
    destruct H as (u & s1 & H1 & H). destruct (IH s1 H) as (s2 & K1 & K2). exists s2. split; [|exact K2]. unfold bind. rewrite H1. exact K1.
  Qed.
  Lemma move_kept_ok cut old new : forall es i k s s', steps (mvs cut old new i k es) s = (s', Some tt) ->
    move_kept cut old new i k es s = (s', Some (kept_of cut es)).
  Proof.
    induction es as [|e r IH]; intros i k s s' H; cbn [mvs move_kept kept_of filter] in *; [cbn in H; injection H as <-; reflexivity|].
    destruct (mem e cut) eqn:Em; cbn [negb]; [apply IH; exact H|]. cbn [steps mfor fst snd] in H. apply bind_inv in H. destruct H as (u & s1 & H1 & H).
    unfold bind. rewrite H1. rewrite (IH _ _ _ _ H). reflexivity.
  Qed.
  Fixpoint amvs (old new : nid) (i off : nat) (es : list eid) : list move :=
    match es with [] => [] | e :: r => (e, ((old, i), (new, i + off))) :: amvs old new (S i) off r end.
  Lemma move_all_ok old new off : forall es i s s', steps (amvs old new i off es) s = (s', Some tt) -> move_all old new i off es s = (s', Some tt).
  Proof.
    induction es as [|e r IH]; intros i s s' H; cbn [amvs move_all] in *; [exact H|]. cbn [steps mfor fst snd] in H. apply bind_inv in H. destruct H as (u & s1 & H1 & H).
    unfold bind. rewrite H1. apply IH. exact H.
  Qed.
  Lemma reorder_loop_ok n es : forall perm i s s', Forall (fun p => p < length es) perm -> steps (rmv n es i perm) s = (s', Some tt) -> reorder_loop n es i perm s = (s', Some tt).
  Proof.
    induction perm as [|p r IH]; intros i s s' F H; cbn [rmv reorder_loop] in *; [exact H|]. apply Forall_cons_iff in F. destruct F as [F1 F2].
    rewrite (nth_error_nth' es 0 F1). cbn [steps mfor fst snd] in H. apply bind_inv in H. destruct H as (u & s1 & H1 & H). unfold bind. rewrite H1. apply IH; assumption.
  Qed.
  Lemma In_mvs cut old new : forall es i k e o n, In (e, (o, n)) (mvs cut old new i k es) -> exists j, o = (old, i + j) /\ nth_error es j = Some e.
  Proof.
    induction es as [|f r IH]; intros i k e o n H; cbn [mvs] in H; [contradiction|]. destruct (mem f cut).
    - destruct (IH _ _ _ _ _ H) as (j & -> & E). exists (S j). split; [f_equal; lia|exact E].
    - destruct H as [H|H]; [injection H as <- <- _; exists 0; split; [f_equal; lia|reflexivity]|].
      destruct (IH _ _ _ _ _ H) as (j & -> & E). exists (S j). split; [f_equal; lia|exact E].
  Qed.
  Lemma mvs_olds cut old new : forall es i k, NoDup (map (fun m => (fst m, fst (snd m))) (mvs cut old new i k es)).
  Proof.
    induction es as [|f r IH]; intros i k; cbn [mvs]; [constructor|]. destruct (mem f cut); [apply IH|]. cbn [map fst snd]. constructor; [|apply IH].
    intros H. apply in_map_iff in H. destruct H as ([e [o n]] & E & H). cbn [fst snd] in E. injection E as -> ->.
    destruct (In_mvs H) as (j & E & _). injection E as E. lia.
  Qed.
  Lemma In_amvs old new off : forall es i e o n, In (e, (o, n)) (amvs old new i off es) -> exists j, o = (old, i + j) /\ nth_error es j = Some e.
  Proof.
    induction es as [|f r IH]; intros i e o n H; cbn [amvs] in H; [contradiction|].
    destruct H as [H|H]; [injection H as <- <- _; exists 0; split; [f_equal; lia|reflexivity]|].
    destruct (IH _ _ _ _ H) as (j & -> & E). exists (S j). split; [f_equal; lia|exact E].
  Qed.
  Lemma amvs_olds old new off : forall es i, NoDup (map (fun m => (fst m, fst (snd m))) (amvs old new i off es)).
  Proof.
    induction es as [|f r IH]; intros i; cbn [amvs]; [constructor|]. cbn [map fst snd]. constructor; [|apply IH].
    intros H. apply in_map_iff in H. destruct H as ([e [o n]] & E & H). cbn [fst snd] in E. injection E as -> ->.
    destruct (In_amvs H) as (j & E & _). injection E as E. lia.
  Qed.
  Lemma wf_end X s n nd k e : wfx X s -> s_nodes s n = Some nd -> nth_error (n_edges nd) k = Some e ->
    exists ed, s_edges s e = Some ed /\ e_dis ed = false /\ In (n, k) (ends ed).
  Proof. intros W Hn Hk. destruct (wf_slot W (slot_intro Hn Hk)) as (ed & E & D & I & _). eauto. Qed.

  (** *** adding edges to a node whose axes dangle *)
  Lemma add_edge_any s n nd e ax old od ov : s_nodes s n = Some nd -> ax < rank (n_t nd) -> nth_error (n_edges nd) ax = Some old ->
    s_edges s old = Some od -> (ov = true \/ e_2 od = None) ->
    add_edge n e ax ov s = (with_node s n (Node (n_t nd) (replace_nth ax e (n_edges nd)) (n_names nd)), Some tt).
  Proof.
    intros H1 H2 H3 H4 H5. unfold add_edge, bind, get_node. rewrite H1. unfold guard. rewrite (proj2 (Nat.ltb_lt _ _)) by exact H2. unfold ret.
    rewrite H3, H4. unfold is_dangling. destruct H5 as [-> | ->]; [rewrite orb_true_r|]; reflexivity.
  Qed.
  Lemma add_all_ok n ov : forall es i s nd, s_nodes s n = Some nd -> length (n_edges nd) = rank (n_t nd) -> i + length es <= rank (n_t nd) ->
    (forall j old, i <= j -> nth_error (n_edges nd) j = Some old -> exists od, s_edges s old = Some od /\ (ov = true \/ e_2 od = None)) ->
    exists s', add_all n i es ov s = (s', Some tt) /\ s_edges s' = s_edges s.
  Proof.
    induction es as [|e r IH]; intros i s nd Hn Hr Hl Ho; [exists s; split; reflexivity|]. cbn [add_all length] in *.
    destruct (nth_error (n_edges nd) i) as [old|] eqn:Eo; [|apply nth_error_None in Eo; lia].
    destruct (Ho i old (le_n _) Eo) as (od & E & K). unfold bind. rewrite (@add_edge_any s n nd e i old od ov) by (auto; lia).
    destruct (IH (S i) (with_node s n (Node (n_t nd) (replace_nth i e (n_edges nd)) (n_names nd))) (Node (n_t nd) (replace_nth i e (n_edges nd)) (n_names nd))) as (s' & K1 & K2);
      [unfold with_node; cbn [s_nodes]; apply upd_same| | | |rewrite K1; exists s'; split; [reflexivity|exact K2]]; cbn [n_t n_edges].
    - rewrite replace_nth_length. exact Hr.
    - lia.
    - intros j o' Hj He. rewrite nth_error_replace_nth in He. destruct (Nat.eqb_spec j i); [lia|]. apply (Ho j); [lia|exact He].
  Qed.

  Lemma fresh_from_ok n : forall k i m s nd, s_nodes s n = Some nd -> length (n_edges nd) = rank (n_t nd) -> i + k = rank (n_t nd) -> rank (n_t nd) <= m ->
    (forall j e, i <= j -> nth_error (n_edges nd) j = Some e -> s_edges s e <> None) -> exists s', fresh_edges_from n m i k s = (s', Some tt).
  Proof.
    induction k as [|k IH]; intros i m s nd H1 H2 H3 H4 H5; [exists s; reflexivity|]. cbn [fresh_edges_from]. unfold guard.
    rewrite (proj2 (Nat.ltb_lt _ _)) by lia. unfold bind at 1, ret at 1. unfold bind at 1, alloc_edge.
    destruct (nth_error (n_edges nd) i) as [old|] eqn:Eo; [|apply nth_error_None in Eo; lia].
    pose proof (H5 i old (le_n _) Eo) as Ho. set (s1 := St _ _ _ _).
    assert (forall e, s_edges s e <> None -> s_edges s1 e <> None) as Hk.
    { intros e He. unfold s1. cbn [s_edges]. unfold upd. destruct (Nat.eq_dec _ _); [discriminate|exact He]. }
    destruct (s_edges s1 old) as [od|] eqn:Eod; [|exfalso; exact (Hk old Ho Eod)].
    unfold bind. rewrite (@add_edge_any s1 n nd (s_ne s) i old od) by (auto; lia).
    eapply IH; [unfold with_node; cbn [s_nodes]; apply upd_same| | | |]; cbn [n_t n_edges]; [rewrite replace_nth_length; exact H2|lia|exact H4|].
    intros j e Hj He. apply Hk. rewrite nth_error_replace_nth in He. destruct (Nat.eqb_spec j i); [lia|]. apply (H5 j); [lia|exact He].
  Qed.
  Lemma fresh_ok s n nd : s_nodes s n = Some nd -> length (n_edges nd) = rank (n_t nd) -> length (n_edges nd) <= length (n_names nd) ->
    (forall e, In e (n_edges nd) -> s_edges s e <> None) -> exists s', fresh_edges n s = (s', Some tt).
  Proof.
    intros Hn Hr Hm Hl. unfold fresh_edges. unfold bind, get_node. rewrite Hn. apply (@fresh_from_ok n _ _ _ _ nd); auto.
    - destruct (n_names nd); cbn in *; lia.
    - intros j e _ He. apply Hl. eapply nth_error_In. exact He.
  Qed.
  (** fresh edges keep all edge objects *)
  Lemma fresh_keeps s s' n nd (x : unit) : s_nodes s n = Some nd -> fresh_edges n s = (s', Some x) -> forall e, s_edges s e <> None -> s_edges s' e <> None.
  Proof.
    intros Hn H e He. destruct (fresh_edges_inv Hn H) as (_ & _ & _ & F). rewrite F. destruct (_ && _); [discriminate|exact He].
  Qed.
  Lemma disable_ok l : forall s, (forall e, In e l -> s_edges s e <> None) -> exists s', mfor l (@disable_edge R) s = (s', Some tt).
  Proof.
    induction l as [|e r IH]; intros s H; [exists s; reflexivity|]. cbn [mfor]. unfold bind, disable_edge at 1.
    destruct (s_edges s e) as [ed|] eqn:E; [|exfalso; apply (H e); [left; reflexivity|exact E]]. unfold set_edge.
    apply IH. intros f Hf. cbn [s_edges]. unfold upd. destruct (Nat.eq_dec f e); [discriminate|]. apply H. right. exact Hf.
  Qed.

  Lemma check_cut_ok s n1 n2 cut : (forall e, In e cut -> exists ed, s_edges s e = Some ed /\ joins ed n1 n2 = true) -> check_cut cut n1 n2 s = (s, Some tt).
  Proof.
    induction cut as [|e r IH]; intros H; [reflexivity|]. cbn [check_cut]. destruct (H e (or_introl eq_refl)) as (ed & E & J).
    assert (e_dis ed = false) as D by (unfold joins in J; destruct (e_dis ed); [discriminate|reflexivity]).
    unfold bind, get_edge. rewrite E, D, J. cbn [guard ret]. unfold ret. apply IH. intros f Hf. apply H. right. exact Hf.
  Qed.

  Lemma remove_edges_ok cut n1 n2 N s d1 d2 dN : wf s -> lonely s N -> s_nodes s n1 = Some d1 -> s_nodes s n2 = Some d2 -> s_nodes s N = Some dN ->
    n1 <> n2 -> N <> n1 -> N <> n2 -> rank (n_t dN) = length (kept_of cut (n_edges d1)) + length (kept_of cut (n_edges d2)) ->
    nameable s n1 -> nameable s n2 -> (forall e, In e cut -> exists ed, s_edges s e = Some ed /\ joins ed n1 n2 = true) ->
    succ (remove_edges cut n1 n2 N) s.
  Proof.
    intros W HL H1 H2 HN H12 N1 N2 Hrk Nm1 Nm2 Hcut. unfold remove_edges.
    apply succ_guard; [destruct (Nat.eqb_spec n1 n2); [contradiction|reflexivity]|].
    apply (succ_get_node H1). apply (succ_get_node H2). apply (@succ_bind _ _ _ _ s s tt); [apply check_cut_ok; exact Hcut|].
    destruct (@steps_ok (mvs cut n1 N 0 0 (n_edges d1) ++ mvs cut n2 N 0 (length (kept_of cut (n_edges d1))) (n_edges d2)) s) as (sB & HB).
    { rewrite map_app. apply NoDup_app_iff. split; [apply mvs_olds|]. split; [apply mvs_olds|].
      intros [e o] A B. apply in_map_iff in A, B. destruct A as ([e1 [o1 q1]] & A1 & A). destruct B as ([e2 [o2 q2]] & B1 & B). cbn [fst snd] in *.
      apply In_mvs in A, B. destruct A as (j & -> & _). destruct B as (j' & -> & _). congruence. }
    { intros e o q Hin. apply in_app_iff in Hin. destruct Hin as [Hin|Hin]; apply In_mvs in Hin; destruct Hin as (j & -> & Ej); cbn [Nat.add].
      - apply (wf_end W H1 Ej). - apply (wf_end W H2 Ej). }
    destruct (steps_app HB) as (sA & HA & HB2). pose proof (steps_evolves HB) as (Vn & _ & _ & Ve).
    apply (succ_bind (move_kept_ok HA)). apply (succ_bind (move_kept_ok HB2)).
    destruct (@add_all_ok N false (kept_of cut (n_edges d1) ++ kept_of cut (n_edges d2)) 0 sB dN) as (sC & HC & EC).
    { rewrite Vn. exact HN. } { apply (wf_rank W HN). } { rewrite app_length. lia. }
    { intros j old _ Ej. pose proof (HL j old (slot_intro HN Ej)) as E. destruct (Ve _ _ E) as (od & K1 & K2). exists od. split; [exact K1|]. right. apply K2. reflexivity. }
    apply (succ_bind HC). assert (s_nodes sB N = Some dN) as HNB by (rewrite Vn; exact HN).
    assert (forall e, s_edges s e <> None -> s_edges sC e <> None) as Live.
    { intros e He. rewrite EC. destruct (s_edges s e) as [ed|] eqn:E; [|congruence]. destruct (Ve _ _ E) as (ed' & -> & _). discriminate. }
    assert (forall m, m <> N -> s_nodes sC m = s_nodes s m) as Oth.
    { apply (add_all_inv HNB) in HC; [|rewrite app_length, (wf_rank W HN); lia]. intros m Hm. destruct HC as (C1 & _). rewrite <- Vn, C1.
      destruct (Nat.eqb_spec m N); [contradiction|reflexivity]. }
    assert (forall m md e, s_nodes s m = Some md -> In e (n_edges md) -> s_edges s e <> None) as Hlive.
    { intros m md e Hm He. apply In_nth_error in He. destruct He as (k & Hk). destruct (wf_end W Hm Hk) as (ed & -> & _). discriminate. }
    destruct (@fresh_ok sC n1 d1) as (sD & HD).
    { rewrite Oth by auto. exact H1. } { apply (wf_rank W H1). } { apply (Nm1 _ H1). } { intros e He. apply Live. apply (Hlive _ _ _ H1 He). }
    apply (succ_bind HD). assert (s_nodes sC n1 = Some d1) as HC1 by (rewrite Oth by auto; exact H1).
    pose proof (fresh_keeps HC1 HD) as KD. destruct (fresh_edges_inv HC1 HD) as (FD & _).
    assert (s_nodes sD n2 = Some d2) as HD2. { rewrite FD. destruct (Nat.eqb_spec n2 n1); [congruence|]. rewrite Oth by auto. exact H2. }
    destruct (@fresh_ok sD n2 d2) as (sE & HE); [exact HD2|apply (wf_rank W H2)|apply (Nm2 _ H2)|intros e He; apply KD, Live, (Hlive _ _ _ H2 He)|].
    apply (succ_bind HE). pose proof (fresh_keeps HD2 HE) as KE.
    destruct (@disable_ok cut sE) as (sF & HF); [|exists sF, tt; exact HF].
    intros e He. apply KE, KD, Live. destruct (Hcut e He) as (ed & -> & _). discriminate.
  Qed.

  (** *** new nodes *)
  Definition names_fit (names : option (list nat)) (k : nat) : Prop := match names with None => True | Some l => NoDup l /\ length l = k end.
  Lemma nodupb_true l : NoDup l -> nodupb l = true.
  Proof.
    induction 1 as [|x l Hx _ IH]; [reflexivity|]. cbn [nodupb]. rewrite IH. apply mem_nIn in Hx. rewrite Hx. reflexivity.
  Qed.
  Lemma new_node_succ s t names : names_fit names (rank t) -> succ (new_node t names) s.
  Proof.
    intros H. unfold new_node. apply succ_guard.
    - destruct names as [l|]; [|reflexivity]. destruct H as [H1 H2]. rewrite (nodupb_true H1), H2, Nat.eqb_refl. reflexivity.
    - apply (@succ_bind _ _ _ _ s s (s_nn s)); [reflexivity|]. destruct (alloc_edges_ok (s_nn s) 0 (rank t) s) as (s' & E). apply (succ_bind E). unfold alloc_node. eexists. eexists. reflexivity.
  Qed.

  Lemma free_kept_length (es ax cut : list nat) : (forall j, j < length es -> (In j ax <-> In (nth j es 0) cut)) ->
    length (free_axes (length es) ax) = length (kept_of cut es).
  Proof. intros H. rewrite <- (free_labels_kept H). unfold free_labels. rewrite gather_length. reflexivity. Qed.

  Lemma pair_ok u v du dv ax bx cut names s : wf s -> u <> v -> s_nodes s u = Some du -> s_nodes s v = Some dv ->
    (forall j, j < length (n_edges du) -> (In j ax <-> In (nth j (n_edges du) 0) cut)) ->
    (forall j, j < length (n_edges dv) -> (In j bx <-> In (nth j (n_edges dv) 0) cut)) ->
    (forall e, In e cut -> exists ed, s_edges s e = Some ed /\ joins ed u v = true /\ e < s_ne s) ->
    names_fit names (length (kept_of cut (n_edges du)) + length (kept_of cut (n_edges dv))) -> nameable s u -> nameable s v ->
    succ (new <- new_node (tensordot (n_t du) (n_t dv) ax bx) names ;; remove_edges cut u v new ;;; ret new) s.
  Proof.
    intros W Hne Hu Hv Ha Hb Hc Hf Nu Nv.
    assert (rank (tensordot (n_t du) (n_t dv) ax bx) = length (kept_of cut (n_edges du)) + length (kept_of cut (n_edges dv))) as Hrk.
    { unfold rank at 1. cbn [shape tensordot]. rewrite app_length, !gather_length. rewrite <- (wf_rank W Hu), <- (wf_rank W Hv).
      rewrite (free_kept_length Ha), (free_kept_length Hb). reflexivity. }
    apply succ_bind'; [apply new_node_succ; rewrite Hrk; exact Hf|]. intros s1 N Hnew.
    destruct (new_node_wf W Hnew) as (W1 & Hlon & EN & Hnone & Hnn & (nms & Hlen & _ & _ & HN) & Hold & Hedge & _).
    apply succ_bind'; [|intros; apply succ_ret].
    assert (N <> u) by (intros K; rewrite K in Hnone; congruence). assert (N <> v) by (intros K; rewrite K in Hnone; congruence).
    assert (s_nodes s1 u = Some du) as Hu1 by (rewrite Hold; auto). assert (s_nodes s1 v = Some dv) as Hv1 by (rewrite Hold; auto).
    apply (remove_edges_ok W1 Hlon Hu1 Hv1 HN); auto.
    - intros nd K. rewrite Hold in K by auto. apply (Nu nd K).
    - intros nd K. rewrite Hold in K by auto. apply (Nv nd K).
    - intros e He. destruct (Hc e He) as (ed & E & J & L). exists ed. rewrite Hedge by exact L. auto.
  Qed.

  Lemma outer_ok n1 n2 names s d1 d2 : wf s -> n1 <> n2 -> s_nodes s n1 = Some d1 -> s_nodes s n2 = Some d2 ->
    names_fit names (rank (n_t d1) + rank (n_t d2)) -> nameable s n1 -> nameable s n2 -> succ (outer_product n1 n2 names) s.
  Proof.
    intros W Hne H1 H2 Hf Nu Nv. unfold outer_product. apply (succ_get_node H1). apply (succ_get_node H2).
    assert (rank (outer (n_t d1) (n_t d2)) = rank (n_t d1) + rank (n_t d2)) as Hrk by (unfold rank; cbn [shape outer]; rewrite app_length; reflexivity).
    apply succ_bind'; [apply new_node_succ; rewrite Hrk; exact Hf|]. intros s1 N Hnew.
    destruct (new_node_wf W Hnew) as (W1 & Hlon & EN & Hnone & Hnn & (nms & Hlen & _ & _ & HN) & Hold & Hedge & _).
    assert (N <> n1) as Nn1 by (intros K; rewrite K in Hnone; congruence). assert (N <> n2) as Nn2 by (intros K; rewrite K in Hnone; congruence).
    assert (s_nodes s1 n1 = Some d1) as H1' by (rewrite Hold; auto). assert (s_nodes s1 n2 = Some d2) as H2' by (rewrite Hold; auto).
    destruct (@steps_ok (amvs n1 N 0 0 (n_edges d1) ++ amvs n2 N 0 (rank (n_t d1)) (n_edges d2)) s1) as (sB & HB).
    { rewrite map_app. apply NoDup_app_iff. split; [apply amvs_olds|]. split; [apply amvs_olds|].
      intros [e o] A B. apply in_map_iff in A, B. destruct A as ([e1 [o1 q1]] & A1 & A). destruct B as ([e2 [o2 q2]] & B1 & B). cbn [fst snd] in *.
      apply In_amvs in A, B. destruct A as (j & -> & _). destruct B as (j' & -> & _). congruence. }
    { intros e o q Hin. apply in_app_iff in Hin. destruct Hin as [Hin|Hin]; apply In_amvs in Hin; destruct Hin as (j & -> & Ej); cbn [Nat.add].
      - apply (wf_end W1 H1' Ej). - apply (wf_end W1 H2' Ej). }
    destruct (steps_app HB) as (sA & HA & HB2). pose proof (steps_evolves HB) as (Vn & _ & _ & Ve).
    apply (succ_bind (move_all_ok HA)). apply (succ_bind (move_all_ok HB2)).
    destruct (@add_all_ok N true (n_edges d1 ++ n_edges d2) 0 sB (Node (outer (n_t d1) (n_t d2)) (seq (s_ne s) (rank (outer (n_t d1) (n_t d2)))) nms)) as (sC & HC & EC).
    { rewrite Vn. exact HN. } { cbn [n_edges n_t]. apply seq_length. } { cbn [n_t]. rewrite app_length, Hrk, (wf_rank W H1), (wf_rank W H2). lia. }
    { intros j old _ Ej. pose proof (Hlon j old (slot_intro HN Ej)) as E. destruct (Ve _ _ E) as (od & K1 & K2). exists od. auto. }
    apply (succ_bind HC). assert (s_nodes sB N = s_nodes s1 N) as HNB by (rewrite Vn; reflexivity). rewrite HN in HNB.
    assert (forall e, s_edges s1 e <> None -> s_edges sC e <> None) as Live.
    { intros e He. rewrite EC. destruct (s_edges s1 e) as [ed|] eqn:E; [|congruence]. destruct (Ve _ _ E) as (ed' & -> & _). discriminate. }
    assert (forall m, m <> N -> s_nodes sC m = s_nodes s1 m) as Oth.
    { apply (add_all_inv HNB) in HC; [|cbn [n_edges]; rewrite seq_length, app_length, Hrk, (wf_rank W H1), (wf_rank W H2); reflexivity].
      intros m Hm. destruct HC as (C1 & _). rewrite <- Vn, C1. destruct (Nat.eqb_spec m N); [contradiction|reflexivity]. }
    assert (forall m md e, s_nodes s1 m = Some md -> In e (n_edges md) -> s_edges s1 e <> None) as Hlive.
    { intros m md e Hm He. apply In_nth_error in He. destruct He as (k & Hk). destruct (wf_end W1 Hm Hk) as (ed & -> & _). discriminate. }
    assert (s_nodes sC n1 = Some d1) as HC1 by (rewrite Oth by auto; exact H1').
    destruct (@fresh_ok sC n1 d1) as (sD & HD); [exact HC1|apply (wf_rank W H1)|apply (Nu _ H1)|intros e He; apply Live, (Hlive _ _ _ H1' He)|].
    apply (succ_bind HD). pose proof (fresh_keeps HC1 HD) as KD. destruct (fresh_edges_inv HC1 HD) as (FD & _).
    assert (s_nodes sD n2 = Some d2) as HD2. { rewrite FD. destruct (Nat.eqb_spec n2 n1); [congruence|]. rewrite Oth by auto. exact H2'. }
    destruct (@fresh_ok sD n2 d2) as (sE & HE); [exact HD2|apply (wf_rank W H2)|apply (Nv _ H2)|intros e He; apply KD, Live, (Hlive _ _ _ H2' He)|].
    apply (succ_bind HE). apply succ_ret.
  Qed.

  (** *** traces *)
  Lemma shift_ok nd0 new x y : forall l s, (forall e, In e l -> exists ed, s_edges s e = Some ed /\ e_dis ed = false) ->
    exists s', mfor l (fun f => shift_edge (R := R) f nd0 new x y) s = (s', Some tt) /\ s_nodes s' = s_nodes s /\
      (forall e, ~ In e l -> s_edges s' e = s_edges s e) /\ (forall e, s_edges s e <> None -> s_edges s' e <> None).
  Proof.
    induction l as [|f r IH]; intros s H; [exists s; repeat split; auto|]. cbn [mfor]. destruct (H f (or_introl eq_refl)) as (ed & E & D).
    unfold bind at 1. unfold shift_edge at 1, bind at 1, get_edge. rewrite E, D. unfold set_edge. set (s1 := St _ _ _ _).
    destruct (IH s1) as (s' & K1 & K2 & K3 & K4).
    { intros e He. unfold s1. cbn [s_edges]. unfold upd. destruct (Nat.eq_dec e f); [eexists; split; reflexivity|]. apply H. right. exact He. }
    exists s'. rewrite K1. split; [reflexivity|]. split; [rewrite K2; reflexivity|]. split.
    - intros e He. rewrite K3 by (intros K; apply He; right; exact K). unfold s1. cbn [s_edges]. apply upd_other. intros ->. apply He. left. reflexivity.
    - intros e He. apply K4. unfold s1. cbn [s_edges]. unfold upd. destruct (Nat.eq_dec e f); [discriminate|exact He].
  Qed.

  Lemma trace_ok e ed n a2 s : wf s -> (exists p, slot s p = Some e) -> s_edges s e = Some ed -> e_n1 ed = n -> e_2 ed = Some (n, a2) ->
    nameable s n -> succ (contract_trace e) s.
  Proof.
    intros W (p & Hp) E En E2 Nm. unfold contract_trace.
    destruct (wf_slot W Hp) as (ed0 & K & Hdis & _ & Hnd & _). rewrite E in K. injection K as <-.
    apply (succ_get_edge E Hdis). rewrite E2. apply succ_guard; [rewrite En; apply Nat.eqb_refl|].
    assert (forall q, In q (ends ed) -> slot s q = Some e) as Hl by (intros q Hq; apply (ends_live W Hp E Hq)).
    assert (ends ed = [(n, e_a1 ed); (n, a2)]) as Eends by (unfold ends; rewrite E2, En; reflexivity).
    assert (e_a1 ed <> a2) as Hax.
    { rewrite Eends in Hnd. apply NoDup_cons_iff in Hnd. destruct Hnd as [Hnd _]. intros K. apply Hnd. left. congruence. }
    assert (slot s (n, e_a1 ed) = Some e) as S1 by (apply Hl; rewrite Eends; left; reflexivity).
    assert (slot s (n, a2) = Some e) as S2 by (apply Hl; rewrite Eends; right; left; reflexivity).
    pose proof (slot_node S1) as (nd & Hn & K1). apply slot_node in S2. destruct S2 as (nd' & Hn' & K2). cbn [fst snd] in *. rewrite Hn in Hn'. injection Hn' as <-.
    assert (e_a1 ed < length (n_edges nd)) as B1 by (apply nth_error_Some; congruence). assert (a2 < length (n_edges nd)) as B2 by (apply nth_error_Some; congruence).
    rewrite En. apply (succ_get_node Hn). cbv zeta. set (x := Nat.min (e_a1 ed) a2). set (y := Nat.max (e_a1 ed) a2). set (r := rank (n_t nd)).
    assert (x < y /\ y < r) as [Hxy Hyr] by (unfold x, y, r; rewrite <- (wf_rank W Hn); lia).
    assert (length (free_axes r [x; y]) + 2 = r) as Lfr.
    { apply (@free_axes_length r [x; y]); [repeat constructor; cbn; [intros [K|[]]; lia|intros []]|intros i [<-|[<-|[]]]; lia]. }
    set (t := trace2 _ _ _). assert (rank t = length (free_axes r [x; y])) as Hrk.
    { unfold t, rank. cbn [shape trace2]. rewrite gather_length. unfold rank. cbn [shape transpose]. rewrite gather_length, app_length. cbn [length].
      rewrite Lfr, free_axes_last2 by lia. rewrite seq_length. lia. }
    apply succ_bind'; [apply new_node_succ; exact I|]. intros s1 N Hnew.
    destruct (new_node_wf W Hnew) as (W1 & Hlon & EN & Hnone & Hnn & (nms & Hlen & _ & _ & HN) & Hold & Hedge & _).
    assert (N <> n) as NN by (intros K; rewrite K in Hnone; congruence).
    assert (s_nodes s1 n = Some nd) as Hn1 by (rewrite Hold; auto).
    assert (s_edges s1 e = Some ed) as E1 by (rewrite Hedge; [exact E|apply (slot_lt W Hp)]).
    apply succ_bind'; [|intros; apply succ_ret]. unfold remove_trace_edge. apply (succ_get_edge E1 Hdis). rewrite E2.
    apply succ_guard; [rewrite En; apply Nat.eqb_refl|]. rewrite En. apply (succ_get_node Hn1). fold x y. cbv zeta.
    replace (length (n_edges nd)) with r by (symmetry; apply (wf_rank W Hn)).
    set (kept := gather 0 (n_edges nd) (free_axes r [x; y])).
    assert (forall f, In f kept -> In f (n_edges nd)) as Hkept.
    { intros f Hf. apply (@gather_In_bound _ 0 (n_edges nd) (free_axes r [x; y])); [|exact Hf]. intros i Hi. apply In_free_axes in Hi. rewrite (wf_rank W Hn). apply Hi. }
    assert (forall f, In f (n_edges nd) -> exists fd, s_edges s1 f = Some fd /\ e_dis fd = false) as Hlv.
    { intros f Hf. apply In_nth_error in Hf. destruct Hf as (k & Hk). destruct (wf_end W1 Hn1 Hk) as (fd & A & B & _). eauto. }
    destruct (@shift_ok n N x y (nodup Nat.eq_dec kept) s1) as (s2 & A1 & A2 & A3 & A4).
    { intros f Hf. apply nodup_In in Hf. apply Hlv, Hkept, Hf. }
    apply (succ_bind A1).
    destruct (@add_all_ok N false kept 0 s2 (Node t (seq (s_ne s) (rank t)) nms)) as (s3 & B3 & B4).
    { rewrite A2. exact HN. } { cbn [n_edges n_t]. apply seq_length. } { cbn [n_t]. unfold kept. rewrite gather_length, Hrk. lia. }
    { intros j old _ Ej. pose proof (Hlon j old (slot_intro HN Ej)) as Eo. exists (Edge N j None false). split; [|right; reflexivity].
      rewrite A3; [exact Eo|]. intros K. apply nodup_In in K. apply Hkept in K. apply In_nth_error in K. destruct K as (k & Hk).
      destruct (wf_end W1 Hn1 Hk) as (fd & X1 & _ & X2). rewrite Eo in X1. injection X1 as <-. destruct X2 as [X2|[]]. cbn in X2. congruence. }
    apply (succ_bind B3). assert (s_nodes s2 N = s_nodes s1 N) as HN2 by (rewrite A2; reflexivity). rewrite HN in HN2.
    assert (s_nodes s3 n = Some nd) as Hn3.
    { apply (add_all_inv HN2) in B3; [|cbn [n_edges]; rewrite seq_length; unfold kept; rewrite gather_length, Hrk; reflexivity].
      destruct B3 as (C1 & _). rewrite C1, A2. destruct (Nat.eqb_spec n N); [congruence|exact Hn1]. }
    assert (forall f, s_edges s1 f <> None -> s_edges s3 f <> None) as Live by (intros f Hf; rewrite B4; apply A4; exact Hf).
    destruct (@fresh_ok s3 n nd) as (s4 & HF); [exact Hn3|apply (wf_rank W Hn)|apply (Nm _ Hn)|intros f Hf; apply Live; destruct (Hlv f Hf) as (fd & -> & _); discriminate|].
    apply (succ_bind HF). unfold disable_edge, succ.
    pose proof (fresh_keeps Hn3 HF (e := e)) as Ke. destruct (s_edges s4 e) as [x4|]; [eexists; eexists; reflexivity|].
    exfalso. apply Ke; [|reflexivity]. apply Live. rewrite E1. discriminate.
  Qed.

  (** *** contract *)
  Lemma contract_ok e p ed names s : wf s -> slot s p = Some e -> s_edges s e = Some ed -> e_2 ed <> None ->
    (forall n, In n (map fst (ends ed)) -> nameable s n) ->
    (forall m, e_2 ed = Some m -> e_n1 ed <> fst m -> forall d1 d2, s_nodes s (e_n1 ed) = Some d1 -> s_nodes s (fst m) = Some d2 ->
       names_fit names (length (kept_of [e] (n_edges d1)) + length (kept_of [e] (n_edges d2)))) ->
    succ (contract e names) s.
  Proof.
    intros W Hp E H2 Nm Hf. destruct (e_2 ed) as [[m a2]|] eqn:E2; [|congruence]. clear H2. unfold contract.
    destruct (wf_slot W Hp) as (ed0 & K & Hdis & _ & Hnd & _). rewrite E in K. injection K as <-.
    apply (succ_get_edge E Hdis). rewrite E2. unfold ends in Nm. rewrite E2 in Nm. cbn [map fst In] in Nm. destruct (Nat.eqb_spec (e_n1 ed) m) as [Em|Nem].
    - apply (@trace_ok e ed m a2 s W (ex_intro _ p Hp) E Em E2). apply Nm. auto.
    - assert (joins ed (e_n1 ed) m = true) as J by (unfold joins; rewrite Hdis, E2, !Nat.eqb_refl; reflexivity).
      destruct (two_ends W Nem (ex_intro _ p Hp) E J) as (i & j & Si & Sj & Or & Ui & Uj).
      unfold orient in Or. rewrite E, E2, Nat.eqb_refl in Or. injection Or as <- <-.
      apply slot_node in Si, Sj. destruct Si as (d1 & Hn1 & Si). destruct Sj as (d2 & Hn2 & Sj).
      apply (succ_get_node Hn1). apply (succ_get_node Hn2).
      apply (@pair_ok (e_n1 ed) m d1 d2 [e_a1 ed] [a2] [e] names s); auto.
      + intros k Hk. cbn [In]. split; (intros [K|[]]; left).
        * rewrite <- K. symmetry. apply (nth_error_nth _ _ 0 Si).
        * symmetry. apply Ui. apply (slot_intro Hn1). rewrite K. apply nth_error_nth'. exact Hk.
      + intros k Hk. cbn [In]. split; (intros [K|[]]; left).
        * rewrite <- K. symmetry. apply (nth_error_nth _ _ 0 Sj).
        * symmetry. apply Uj. apply (slot_intro Hn2). rewrite K. apply nth_error_nth'. exact Hk.
      + intros f [<-|[]]. exists ed. split; [exact E|]. split; [exact J|]. apply (slot_lt W Hp).
      + apply (Hf (m, a2)); auto.
  Qed.

  (** *** reordering *)
  Lemma finish_reorder_ok n t es names perm s : (forall i, In i perm -> i < length names) -> succ (finish_reorder n t es names perm) s.
  Proof.
    intros H. unfold finish_reorder, set_node. eapply succ_bind; [reflexivity|]. apply succ_guard; [|eexists; eexists; reflexivity].
    apply forallb_forall. intros i Hi. apply Nat.ltb_lt. apply H. exact Hi.
  Qed.
  Lemma reorder_steps X n nd perm s : wfx X s -> s_nodes s n = Some nd -> is_perm (length (n_edges nd)) perm ->
    exists s', reorder_loop n (n_edges nd) 0 perm s = (s', Some tt).
  Proof.
    intros W Hn Hp. assert (forall i, In i perm -> i < length (n_edges nd)) as B by (intros i Hi; apply (is_perm_In i Hp); exact Hi).
    destruct (@steps_ok (rmv n (n_edges nd) 0 perm) s) as (s' & H).
    - apply (NoDup_map_inv snd). rewrite map_map. cbn [snd]. rewrite rmv_olds. apply FinFun.Injective_map_NoDup; [intros a b K; congruence|]. apply (is_perm_NoDup Hp).
    - intros e o q Hin. apply In_rmv in Hin. destruct Hin as (k & j & Hk & -> & -> & _). apply (wf_end W Hn). apply nth_error_nth'. apply B. eapply nth_error_In. exact Hk.
    - exists s'. apply reorder_loop_ok; [|exact H]. apply Forall_forall. exact B.
  Qed.
  Lemma reorder_axes_ok X n nd perm s : wfx X s -> s_nodes s n = Some nd -> is_perm (length (n_edges nd)) perm -> nameable s n -> succ (reorder_axes n perm) s.
  Proof.
    intros W Hn Hp Nm. unfold reorder_axes. apply (succ_get_node Hn).
    apply succ_guard; [rewrite (proj2 (is_permb_spec _ _) Hp), (wf_rank W Hn), Nat.eqb_refl; reflexivity|].
    destruct (reorder_steps W Hn Hp) as (s' & H). apply (succ_bind H). apply finish_reorder_ok. intros i Hi. apply (is_perm_In i Hp) in Hi. specialize (Nm _ Hn). lia.
  Qed.
  Lemma reorder_edges_ok n nd order s : wf s -> s_nodes s n = Some nd -> NoDup (n_edges nd) -> Permutation order (n_edges nd) -> nameable s n ->
    succ (reorder_edges n order) s.
  Proof.
    intros W Hn Nd Hp Nm. unfold reorder_edges. apply (succ_get_node Hn).
    apply succ_guard; [apply forallb_forall; intros e He; apply mem_In; apply (Permutation_in _ Hp); exact He|].
    apply succ_guard; [apply forallb_forall; intros e He; apply mem_In; apply (Permutation_in _ (Permutation_sym Hp)); exact He|].
    assert (forall e, In e order -> exists ed, s_edges s e = Some ed /\ e_dis ed = false /\ is_trace_edge ed = false) as Hc.
    { intros e He. apply (Permutation_in _ Hp) in He. apply In_nth_error in He. destruct He as (k & Hk). pose proof (slot_intro Hn Hk) as Hs.
      destruct (wf_slot W Hs) as (ed & E & D & I & N & L). exists ed. split; [exact E|]. split; [exact D|].
      unfold is_trace_edge. destruct (e_2 ed) as [[m a2]|] eqn:E2; [|reflexivity]. destruct (Nat.eqb_spec (e_n1 ed) m) as [<-|]; [|reflexivity]. exfalso.
      assert (slot s (e_n1 ed, e_a1 ed) = Some e /\ slot s (e_n1 ed, a2) = Some e) as [S1 S2].
      { split; apply (ends_live W Hs E); unfold ends; rewrite E2; cbn; auto. }
      assert (e_n1 ed = n) as En. { unfold ends in I. rewrite E2 in I. destruct I as [I|[I|[]]]; injection I; congruence. }
      rewrite En in S1, S2. apply slot_node in S1, S2. destruct S1 as (x1 & X1 & Y1). destruct S2 as (x2 & X2 & Y2). rewrite Hn in X1, X2. injection X1 as <-. injection X2 as <-.
      cbn [fst snd] in *. assert (e_a1 ed = a2) as Ea. { apply (proj1 (NoDup_nth_error _) Nd); [apply nth_error_Some; congruence|congruence]. }
      unfold ends in N. rewrite E2, Ea in N. apply NoDup_cons_iff in N. destruct N as [N _]. apply N. left. reflexivity. }
    assert (check_no_trace order s = (s, Some tt)) as Hct.
    { clear Hp. induction order as [|e r IH]; [reflexivity|]. cbn [check_no_trace]. destruct (Hc e (or_introl eq_refl)) as (ed & E & D & T).
      unfold bind, get_edge. rewrite E, D, T. cbn [negb guard ret]. unfold ret. apply IH. intros f Hf. apply Hc. right. exact Hf. }
    apply (succ_bind Hct). cbv zeta. set (perm := map _ order).
    assert (is_perm (length (n_edges nd)) perm) as Pp by (unfold is_perm, perm; rewrite <- (map_nindex_self Nd); apply Permutation_map; exact Hp).
    destruct (reorder_steps W Hn Pp) as (s' & H). apply (succ_bind H).
    apply succ_guard; [rewrite <- (wf_rank W Hn), (proj2 (is_permb_spec _ _) Pp), Nat.eqb_refl; reflexivity|].
    apply finish_reorder_ok. intros i Hi. apply (is_perm_In i Pp) in Hi. specialize (Nm _ Hn). lia.
  Qed.

  (** *** no call loses an edge object *)
  Definition keeps {A} (m : @M R A) : Prop := forall s s' r e, m s = (s', r) -> s_edges s e <> None -> s_edges s' e <> None.
  Lemma keeps_bind A B (m : @M R A) (k : A -> @M R B) : keeps m -> (forall x, keeps (k x)) -> keeps (bind m k).
  Proof.
    intros H K s s' r e E L. unfold bind in E. destruct (m s) as [s1 [x|]] eqn:Em; [|injection E as <- _; apply (H _ _ _ _ Em L)].
    apply (K x _ _ _ _ E). apply (H _ _ _ _ Em L).
  Qed.
  Lemma keeps_ret A (x : A) : keeps (ret x).
  Proof. intros s s' r e E L. injection E as <- _. exact L. Qed.
  Lemma keeps_read A (f : st -> option A) : keeps (fun s => (s, f s)).
  Proof. intros s s' r e E L. injection E as <- _. exact L. Qed.
  Lemma keeps_guard b : keeps (guard b).
  Proof. destruct b; [apply keeps_ret|apply (@keeps_read unit (fun _ => None))]. Qed.
  Lemma keeps_set_node n x : keeps (set_node n x).
  Proof. intros s s' r e E L. injection E as <- _. exact L. Qed.
  Lemma keeps_set_edge f x : keeps (set_edge f x).
  Proof. intros s s' r e E L. injection E as <- _. cbn [s_edges]. unfold upd. destruct (Nat.eq_dec e f); [discriminate|exact L]. Qed.
  Lemma keeps_alloc_edge x : keeps (alloc_edge x).
  Proof. intros s s' r e E L. injection E as <- _. cbn [s_edges]. unfold upd. destruct (Nat.eq_dec e (s_ne s)); [discriminate|exact L]. Qed.
  Lemma keeps_update_axis e o n : keeps (update_axis e o n).
  Proof.
    unfold update_axis. apply keeps_bind; [apply keeps_read|]. intros ed. destruct (_ && _); [apply keeps_set_edge|].
    destruct (e_2 ed) as [[? ?]|]; [|apply (@keeps_read unit (fun _ => None))]. destruct (_ && _); [apply keeps_set_edge|apply (@keeps_read unit (fun _ => None))].
  Qed.
  Lemma keeps_reorder_loop n es : forall perm i, keeps (reorder_loop n es i perm).
  Proof.
    induction perm as [|p r IH]; intros i; cbn [reorder_loop]; [apply keeps_ret|]. destruct (nth_error es p); [|apply (@keeps_read unit (fun _ => None))].
    apply keeps_bind; [apply keeps_update_axis|intros _; apply IH].
  Qed.
  Lemma keeps_reorder_axes n perm : keeps (reorder_axes n perm).
  Proof.
    unfold reorder_axes. apply keeps_bind; [apply keeps_read|]. intros nd. apply keeps_bind; [apply keeps_guard|]. intros _.
    apply keeps_bind; [apply keeps_reorder_loop|]. intros _. unfold finish_reorder. apply keeps_bind; [apply keeps_set_node|]. intros _.
    apply keeps_bind; [apply keeps_guard|]. intros _. apply keeps_set_node.
  Qed.
  Lemma keeps_flatten_node n es : keeps (flatten_node n es).
  Proof.
    unfold flatten_node. apply keeps_bind; [apply keeps_read|]. intros nd. apply keeps_bind; [apply keeps_guard|]. intros _. cbv zeta.
    apply keeps_bind; [apply keeps_reorder_axes|]. intros _. apply keeps_bind; [apply keeps_read|]. intros nd'.
    apply keeps_bind; [apply keeps_alloc_edge|]. intros e. apply keeps_bind; [apply keeps_set_node|]. intros _.
    apply keeps_bind; [apply keeps_guard|]. intros _. apply keeps_bind; [apply keeps_set_node|]. intros _. apply keeps_ret.
  Qed.
  Lemma keeps_add_edge n e ax ov : keeps (add_edge n e ax ov).
  Proof.
    unfold add_edge. apply keeps_bind; [apply keeps_read|]. intros nd. apply keeps_bind; [apply keeps_guard|]. intros _.
    destruct (nth_error _ _); [|apply (@keeps_read unit (fun _ => None))]. apply keeps_bind; [apply keeps_read|]. intros oe.
    apply keeps_bind; [apply keeps_guard|]. intros _. apply keeps_set_node.
  Qed.

  (** *** connecting two fresh dangling edges *)
  Definition sane s : Prop := forall n nd, s_nodes s n = Some nd -> length (n_edges nd) = rank (n_t nd) /\ forall e, In e (n_edges nd) -> s_edges s e <> None.
  Lemma wfx_sane X s : wfx X s -> sane s.
  Proof.
    intros W n nd Hn. split; [apply (wf_rank W Hn)|]. intros e He. apply In_nth_error in He. destruct He as (k & Hk).
    destruct (wf_end W Hn Hk) as (ed & -> & _). discriminate.
  Qed.
  Lemma sane_add_edge s n nd e ax : sane s -> s_nodes s n = Some nd -> ax < rank (n_t nd) -> s_edges s e <> None ->
    exists s', add_edge n e ax true s = (s', Some tt) /\ sane s' /\ same_nodes s s' /\ s_edges s' = s_edges s.
  Proof.
    intros S Hn Ha He. destruct (S n nd Hn) as [Hr Hl]. destruct (nth_error (n_edges nd) ax) as [old|] eqn:Eo; [|apply nth_error_None in Eo; lia].
    assert (s_edges s old <> None) as Ho by (apply Hl; eapply nth_error_In; exact Eo). destruct (s_edges s old) as [od|] eqn:Ed; [|congruence].
    eexists. assert (add_edge n e ax true s = (with_node s n (Node (n_t nd) (replace_nth ax e (n_edges nd)) (n_names nd)), Some tt)) as Ha'
      by (apply (@add_edge_any s n nd e ax old od); auto).
    split; [exact Ha'|]. destruct (add_edge_slot Ha') as (SN & SE & _). split; [|split; [exact SN|exact SE]].
    intros m md Hm. unfold with_node in Hm. cbn [s_nodes] in Hm. unfold upd in Hm. destruct (Nat.eq_dec m n) as [->|Hne].
    - injection Hm as <-. cbn [n_t n_edges]. rewrite replace_nth_length. split; [exact Hr|]. intros f Hf. cbn [s_edges with_node].
      apply In_nth_error in Hf. destruct Hf as (k & Hk). rewrite nth_error_replace_nth in Hk. destruct (Nat.eqb k ax).
      + destruct (Nat.ltb ax (length (n_edges nd))); [injection Hk as <-; exact He|discriminate].
      + apply Hl. eapply nth_error_In. exact Hk.
    - apply (S m md Hm).
  Qed.
  Lemma connect_raw s e1 e2 n1 a1 n2 a2 d : sane s -> s_edges s e1 = Some (Edge n1 a1 None false) -> s_edges s e2 = Some (Edge n2 a2 None false) ->
    e1 <> e2 -> dimat s (n1, a1) = Some d -> dimat s (n2, a2) = Some d ->
    exists s', connect e1 e2 s = (s', Some (s_ne s)) /\ same_nodes s s' /\ (forall e, s_edges s e <> None -> s_edges s' e <> None).
  Proof.
    intros S E1 E2 Hne D1 D2. unfold dimat in D1, D2. cbn [fst snd] in D1, D2.
    destruct (s_nodes s n1) as [d1|] eqn:H1; [|discriminate]. destruct (s_nodes s n2) as [d2|] eqn:H2; [|discriminate].
    assert (edge_dim e1 s = (s, Some d)) as M1 by (unfold edge_dim, bind, get_edge; rewrite E1; cbn; unfold get_node; rewrite H1, D1; reflexivity).
    assert (edge_dim e2 s = (s, Some d)) as M2 by (unfold edge_dim, bind, get_edge; rewrite E2; cbn; unfold get_node; rewrite H2, D2; reflexivity).
    unfold connect. unfold bind at 1, get_edge at 1. rewrite E1. cbn [e_dis]. unfold bind at 1, get_edge at 1. rewrite E2. cbn [e_dis is_dangling e_2 andb].
    unfold bind at 1. cbn [guard]. unfold ret at 1, bind at 1. destruct (Nat.eqb_spec e1 e2); [contradiction|]. cbn [negb guard]. unfold ret at 1.
    unfold bind at 1. rewrite M1. unfold bind at 1. rewrite M2. unfold bind at 1. rewrite Nat.eqb_refl. cbn [guard]. unfold ret at 1.
    unfold bind at 1, alloc_edge. cbn [e_n1 e_a1]. set (s1 := St _ _ _ _).
    assert (forall e, s_edges s e <> None -> s_edges s1 e <> None) as K1.
    { intros e He. unfold s1. cbn [s_edges]. unfold upd. destruct (Nat.eq_dec e (s_ne s)); [discriminate|exact He]. }
    assert (s_edges s1 (s_ne s) <> None) as Kn by (unfold s1; cbn [s_edges]; rewrite upd_same; discriminate).
    assert (sane s1) as S1. { intros n0 nd Hn. destruct (S n0 nd Hn) as [A B]. split; [exact A|]. intros e He. apply K1, B, He. }
    destruct (@sane_add_edge s1 n1 d1 (s_ne s) a1 S1 H1) as (s2 & A2 & S2 & N2 & X2); [apply nth_error_Some; congruence|exact Kn|].
    unfold bind at 1. rewrite A2. pose proof (N2 n2) as Nn2. change (s_nodes s1 n2) with (s_nodes s n2) in Nn2. rewrite H2 in Nn2.
    destruct (s_nodes s2 n2) as [d2'|] eqn:H2'; [|contradiction]. destruct Nn2 as (T2 & _ & _).
    destruct (@sane_add_edge s2 n2 d2' (s_ne s) a2 S2 H2') as (s3 & A3 & S3 & N3 & X3); [rewrite T2; apply nth_error_Some; congruence|rewrite X2; exact Kn|].
    unfold bind. rewrite A3. exists s3. split; [reflexivity|]. split; [apply (same_nodes_trans (s1 := s1)); [exact (same_nodes_refl s)|exact (same_nodes_trans N2 N3)]|].
    intros e He. rewrite X3, X2. apply K1. exact He.
  Qed.

  (** *** flattening *)
  Lemma NoDup_nindex es l : NoDup es -> (forall e, In e es -> In e l) -> NoDup (map (fun e => nindex e l) es).
  Proof.
    intros N H. apply NoDup_map_in; [|exact N]. intros x y Hx Hy K.
    pose proof (nindex_nth_error (H x Hx)) as A. pose proof (nindex_nth_error (H y Hy)) as B. rewrite K in A. congruence.
  Qed.
  Lemma nindex_lt e (l : list nat) : In e l -> nindex e l < length l.
  Proof. intros H. apply nth_error_Some. rewrite (nindex_nth_error H). discriminate. Qed.

  Lemma back_perm es l : NoDup es -> (forall e, In e es -> In e l) ->
    is_perm (length l) (free_axes (length l) (map (fun e => nindex e l) es) ++ map (fun e => nindex e l) es).
  Proof.
    intros N H. apply free_axes_perm; [apply NoDup_nindex; assumption|]. intros i Hi. apply in_map_iff in Hi. destruct Hi as (e & <- & He). apply nindex_lt, H, He.
  Qed.

  Lemma flatten_node_ok X n nd es s : wfx X s -> s_nodes s n = Some nd -> es <> [] -> NoDup es -> (forall e, In e es -> In e (n_edges nd)) -> nameable s n ->
    succ (flatten_node n es) s.
  Proof.
    intros W Hn Hes Nd Hin Nm. unfold flatten_node. apply (succ_get_node Hn).
    apply succ_guard; [apply forallb_forall; intros e He; apply mem_In; apply Hin; exact He|]. cbv zeta.
    pose proof (back_perm Nd Hin) as Pp. set (bk := map _ es) in *. set (fr := free_axes (length (n_edges nd)) bk) in *.
    apply succ_bind'; [apply (reorder_axes_ok W Hn Pp Nm)|]. intros s1 x H1. apply reorder_axes_inv in H1. destruct H1 as (nd0 & K & _ & (_ & _ & H3 & _)).
    specialize (H3 n). rewrite Nat.eqb_refl in H3. apply (succ_get_node H3). unfold alloc_edge. eapply succ_bind; [reflexivity|].
    unfold set_node. eapply succ_bind; [reflexivity|]. apply succ_guard; [|eapply succ_bind; [reflexivity|apply succ_ret]].
    apply Nat.leb_le. pose proof (is_perm_length Pp) as L. rewrite app_length in L. specialize (Nm _ Hn).
    assert (0 < length bk) by (unfold bk; rewrite map_length; destruct es; [congruence|cbn; lia]). lia.
  Qed.

  Lemma check_same_ok p q es s : (forall c, In c es -> exists ed, s_edges s c = Some ed /\ e_dis ed = false /\ edge_set_is ed p q = true) ->
    check_same_nodes p q es s = (s, Some tt).
  Proof.
    induction es as [|e r IH]; intros H; [reflexivity|]. cbn [check_same_nodes]. destruct (H e (or_introl eq_refl)) as (ed & E & D & S).
    unfold bind, get_edge. rewrite E, D, S. cbn [guard]. unfold ret. apply IH. intros c Hc. apply H. right. exact Hc.
  Qed.

  Lemma joins_set ed u v : edge_set_is ed u (Some v) = true -> e_dis ed = false -> joins ed u v = true.
  Proof. unfold edge_set_is, joins. intros H ->. destruct (e_2 ed) as [[m ?]|]; exact H. Qed.
  Lemma set_joins ed u v : joins ed u v = true -> edge_set_is ed u (Some v) = true /\ e_dis ed = false.
  Proof. unfold edge_set_is, joins. destruct (e_dis ed); [discriminate|]. destruct (e_2 ed) as [[m ?]|]; auto. Qed.

  Lemma flatten_two_ok u v es s : wf s -> u <> v -> es <> [] -> NoDup es ->
    (forall c, In c es -> (exists p, slot s p = Some c) /\ exists ed, s_edges s c = Some ed /\ joins ed u v = true) -> nameable s u -> nameable s v ->
    succ (f1 <- flatten_node u es ;; f2 <- flatten_node v es ;; mfor es (@disable_edge R) ;;; connect f1 f2) s.
  Proof.
    intros W Hne Hes Nd Hj Nu Nv.
    assert (exists du dv, s_nodes s u = Some du /\ s_nodes s v = Some dv) as (du & dv & Hu & Hv).
    { destruct es as [|c r]; [congruence|]. destruct (Hj c (or_introl eq_refl)) as (Hp & ed & E & J).
      destruct (two_ends W Hne Hp E J) as (i & j & S1 & S2 & _). apply slot_node in S1, S2. destruct S1 as (du & K1 & _). destruct S2 as (dv & K2 & _). eauto. }
    assert (forall c, In c es -> In c (n_edges du) /\ In c (n_edges dv)) as Hin.
    { intros c Hc. destruct (Hj c Hc) as (Hp & ed & E & J). destruct (two_ends W Hne Hp E J) as (i & j & S1 & S2 & _).
      apply slot_node in S1, S2. destruct S1 as (x1 & X1 & Y1). destruct S2 as (x2 & X2 & Y2). cbn [fst snd] in *. rewrite Hu in X1. rewrite Hv in X2. injection X1 as <-. injection X2 as <-.
      split; eapply nth_error_In; eassumption. }
    apply succ_bind'; [apply (flatten_node_ok W Hu Hes Nd (fun c Hc => proj1 (Hin c Hc)) Nu)|]. intros s1 f1 H1.
    destruct (flatten_node_retail W (@wf_live_at _ s u W) H1) as (du' & Hu' & _ & -> & Tu & _). rewrite Hu in Hu'. injection Hu' as <-.
    pose proof (rt_wf Tu W) as W1. assert (live_at s1 v) as Lv by (apply (rt_live Tu); [auto|apply (wf_live_at W)]).
    assert (s_nodes s1 v = Some dv) as Hv1 by (rewrite (rt_others Tu); auto).
    apply succ_bind'; [apply (flatten_node_ok W1 Hv1 Hes Nd (fun c Hc => proj2 (Hin c Hc)))|].
    { intros nd K. apply (Nv nd). rewrite <- K. symmetry. apply (rt_others Tu). auto. }
    intros s2 f2 H2. destruct (flatten_node_retail W1 Lv H2) as (dv' & Hv' & _ & -> & Tv & _). rewrite Hv1 in Hv'. injection Hv' as <-.
    pose proof (rt_wf Tv W1) as W2. cbv zeta in *.
    set (bu := map (fun e => nindex e (n_edges du)) es) in *. set (bv := map (fun e => nindex e (n_edges dv)) es) in *.
    destruct (@disable_ok es s2) as (s3 & H3).
    { intros c Hc. apply (@keeps_flatten_node v es s1 s2 _ c H2). apply (@keeps_flatten_node u es s s1 _ c H1). destruct (Hj c Hc) as (_ & ed & -> & _). discriminate. }
    apply (succ_bind H3). pose proof H3 as H3'. apply disable_all_inv in H3'. destruct H3' as (N3 & _ & _ & E3).
    assert (s_ne s1 = S (s_ne s)) as Ne1 by (rewrite (rt_ne Tu); cbn; lia).
    assert (forall c, In c es -> c < s_ne s) as Les by (intros c Hc; apply (node_edge_lt W Hu); apply Hin; exact Hc).
    assert (forall c, s_ne s <= c -> mem c es = false) as Hm by (intros c Hc; apply mem_nIn; intros K; specialize (Les c K); lia).
    assert (forall X0 n0 nd0 es0, wfx X0 s -> s_nodes s n0 = Some nd0 -> (forall c, In c es0 -> In c (n_edges nd0)) -> gather 0 (shape (n_t nd0)) (map (fun e => nindex e (n_edges nd0)) es0) = map (edim s) es0) as Hdim.
    { intros X0 n0 nd0 es0 _ Hn0 Hi. pose proof (wf_fits W Hn0) as Ft. unfold fits in Ft. cbn [fst snd] in Ft. rewrite Ft.
      rewrite <- (gather_nindex (l := n_edges nd0) (es := es0) Hi) at 2. symmetry. apply map_gather.
      intros i K. apply in_map_iff in K. destruct K as (e & <- & He). apply nindex_lt, Hi, He. }
    destruct (@connect_raw s3 (s_ne s) (s_ne s1) u (length (free_axes (length (n_edges du)) bu)) v (length (free_axes (length (n_edges dv)) bv)) (nprod (map (edim s) es))) as (s4 & H4 & _).
    - intros m md Hmd. rewrite N3 in Hmd. destruct (wfx_sane W2 Hmd) as [A B]. split; [exact A|]. intros e He. specialize (B e He). rewrite E3.
      destruct (mem e es); [|exact B]. destruct (s_edges s2 e); [discriminate|exact B].
    - rewrite E3, Hm by lia. pose proof (rt_fresh Tu (i := 0) ltac:(cbn; lia)) as F. rewrite !Nat.add_0_r in F. rewrite (rt_away Tv); [exact F|lia|].
      intros k K. unfold slot in K. cbn [fst snd] in K. rewrite Hv1 in K. apply nth_error_In in K. pose proof (node_edge_lt W Hv K). lia.
    - rewrite E3, Hm by lia. pose proof (rt_fresh Tv (i := 0) ltac:(cbn; lia)) as F. rewrite !Nat.add_0_r in F. exact F.
    - lia.
    - unfold dimat. cbn [fst snd]. rewrite N3, (rt_others Tv) by auto. destruct (rt_node Tu) as (nm & ->). cbn [n_t retensor reshape shape].
      rewrite <- (wf_rank W Hu). rewrite nth_error_app2; rewrite gather_length; [|lia]. rewrite Nat.sub_diag. cbn. do 2 f_equal. apply (Hdim (fun _ => False) u); auto. intros c Hc; apply (Hin c Hc).
    - unfold dimat. cbn [fst snd]. rewrite N3. destruct (rt_node Tv) as (nm & ->). cbn [n_t retensor reshape shape].
      rewrite <- (wf_rank W Hv). rewrite nth_error_app2; rewrite gather_length; [|lia]. rewrite Nat.sub_diag. cbn. do 2 f_equal. apply (Hdim (fun _ => False) v); auto. intros c Hc; apply (Hin c Hc).
    - exists s4, (s_ne s3). exact H4.
  Qed.

  Lemma trace_pairs_ok es s : (forall c, In c es -> exists ed, s_edges s c = Some ed /\ e_dis ed = false /\ e_2 ed <> None) ->
    exists ps, trace_pairs es s = (s, Some ps).
  Proof.
    induction es as [|e r IH]; intros H; cbn [trace_pairs]; [exists []; reflexivity|]. destruct (H e (or_introl eq_refl)) as (ed & E & D & E2).
    unfold bind at 1, get_edge. rewrite E, D. destruct (e_2 ed) as [[q b]|]; [|congruence].
    destruct IH as (ps & IH); [intros c Hc; apply H; right; exact Hc|]. unfold bind. rewrite IH. eexists. reflexivity.
  Qed.

  Lemma flatten_trace_ok n es s : es <> [] -> NoDup es -> wf s -> nameable s n ->
    (forall c, In c es -> (exists p, slot s p = Some c) /\ exists ed, s_edges s c = Some ed /\ e_dis ed = false /\ edge_set_is ed n (Some n) = true) ->
    succ (flatten_trace_edges es) s.
  Proof.
    intros Hes Nd W Nm Hd. destruct es as [|e0 er] eqn:Ees; [congruence|]. rewrite <- Ees in *. rewrite (flatten_trace_eq Ees).
    assert (forall c, In c es -> exists a b, a < b /\ slot s (n, a) = Some c /\ slot s (n, b) = Some c /\
              (forall p, slot s p = Some c -> p = (n, a) \/ p = (n, b)) /\
              tpair s c = (a, b)) as Htr.
    { intros c Hc. destruct (Hd c Hc) as ((p & Hs) & ed & E & Dis & Es). unfold edge_set_is in Es.
      destruct ed as [n1 a1 [[m a2]|] ds]; cbn [e_2 e_n1 e_dis] in *; [|discriminate].
      assert (n1 = n /\ m = n) as [-> ->].
      { apply orb_true_iff in Es. destruct Es as [Es|Es]; apply andb_true_iff in Es; destruct Es as [K1 K2]; apply Nat.eqb_eq in K1, K2; auto. }
      subst ds. pose proof (ends_live W Hs E) as L. pose proof (fun q Hq => live_in_ends (p := q) W Hq E) as L'.
      destruct (wf_slot W Hs) as (ed' & K & _ & _ & Hnd & _). rewrite E in K. injection K as <-.
      unfold ends in *. cbn [e_n1 e_a1 e_2] in *.
      assert (a1 <> a2) as Hne.
      { intros ->. apply NoDup_cons_iff in Hnd. destruct Hnd as [K _]. apply K. left. reflexivity. }
      exists (Nat.min a1 a2), (Nat.max a1 a2).
      assert (slot s (n, a1) = Some c) as La by (apply L; left; reflexivity).
      assert (slot s (n, a2) = Some c) as Lb by (apply L; right; left; reflexivity).
      split; [lia|]. split; [destruct (Nat.min_spec a1 a2) as [[_ ->]|[_ ->]]; assumption|].
      split; [destruct (Nat.max_spec a1 a2) as [[_ ->]|[_ ->]]; assumption|]. split.
      - intros q Hq. apply L' in Hq. destruct Hq as [<-|[<-|[]]];
          destruct (Nat.min_spec a1 a2) as [[? ->]|[? ->]], (Nat.max_spec a1 a2) as [[? ->]|[? ->]]; auto; try lia.
      - unfold tpair. rewrite E. reflexivity. }
    assert (In e0 es) as He0 by (rewrite Ees; left; reflexivity).
    assert (forall c ed, In c es -> s_edges s c = Some ed -> e_n1 ed = n /\ e_dis ed = false /\ e_2 ed <> None) as Hen.
    { intros c ed Hc E. destruct (Hd c Hc) as (_ & ed' & E' & D & Es). rewrite E in E'. injection E' as <-. unfold edge_set_is in Es.
      destruct (e_2 ed) as [[m a2]|]; [|discriminate]. split; [|split; [exact D|discriminate]].
      apply orb_true_iff in Es. destruct Es as [Es|Es]; apply andb_true_iff in Es; destruct Es as [K1 K2]; apply Nat.eqb_eq in K1, K2; auto. }
    destruct (Hd e0 He0) as (_ & ed0 & E0 & D0 & _). apply (succ_get_edge E0 D0). destruct (Hen e0 ed0 He0 E0) as [-> _].
    assert (exists nd, s_nodes s n = Some nd) as [nd Hn].
    { destruct (Htr e0 He0) as (a & b & _ & Sa & _). apply slot_node in Sa. destruct Sa as (x & X & _). exists x. exact X. }
    clear e0 er Ees ed0 E0 D0 He0. unfold flatten_trace_body. apply (succ_get_node Hn).
    destruct (@trace_pairs_ok es s) as (ps & Hps); [intros c Hc; destruct (Hd c Hc) as (_ & ed & E & D & _); exists ed; destruct (Hen c ed Hc E) as (_ & _ & K); auto|].
    apply (succ_bind Hps). apply trace_pairs_inv in Hps. destruct Hps as [_ Eps].
    assert (forall c, In c es -> let p := tpair s c in fst p < snd p /\ nth_error (n_edges nd) (fst p) = Some c /\ nth_error (n_edges nd) (snd p) = Some c) as Hp2.
    { intros c Hc. cbn zeta. destruct (Htr c Hc) as (a & b & Hab & Sa & Sb & Ho & ->). cbn [fst snd]. split; [exact Hab|].
      apply slot_node in Sa, Sb. destruct Sa as (x1 & X1 & Sa). destruct Sb as (x2 & X2 & Sb). rewrite Hn in X1, X2. injection X1 as <-. injection X2 as <-. auto. }
    clear Htr. cbn zeta.
    set (A := map fst ps) in *. set (B := map snd ps) in *. set (bk := A ++ B) in *. set (fr := free_axes (length (n_edges nd)) bk) in *.
    set (D := nprod (map (fun p => nth (fst p) (shape (n_t nd)) 0) ps)) in *.
    assert (NoDup bk) as Nbk.
    { unfold bk, A, B. rewrite Eps, !map_map. apply NoDup_app_iff. split; [|split].
      - apply NoDup_map_in; [|exact Nd]. intros c d Hc Hd' K. destruct (Hp2 c Hc) as (_ & K1 & _). destruct (Hp2 d Hd') as (_ & K2 & _). rewrite K in K1. congruence.
      - apply NoDup_map_in; [|exact Nd]. intros c d Hc Hd' K. destruct (Hp2 c Hc) as (_ & _ & K1). destruct (Hp2 d Hd') as (_ & _ & K2). rewrite K in K1. congruence.
      - intros j H1 H2. apply in_map_iff in H1, H2. destruct H1 as (c & <- & Hc). destruct H2 as (d & K & Hd').
        destruct (Hp2 c Hc) as (L1 & K1 & _). destruct (Hp2 d Hd') as (L2 & _ & K2). rewrite K in K2. assert (c = d) as <- by congruence. lia. }
    assert (forall j, In j bk -> j < length (n_edges nd)) as Bbk.
    { intros j Hj. unfold bk, A, B in Hj. rewrite Eps, !map_map in Hj. apply in_app_or in Hj.
      destruct Hj as [Hj|Hj]; apply in_map_iff in Hj; destruct Hj as (c & <- & Hc); destruct (Hp2 c Hc) as (_ & K1 & K2); apply nth_error_Some; congruence. }
    assert (is_perm (length (n_edges nd)) (fr ++ bk)) as Pp by (unfold fr; apply free_axes_perm; assumption).
    apply succ_bind'; [apply (reorder_axes_ok W Hn Pp Nm)|]. intros s1 u H1. pose proof H1 as H1'. apply reorder_axes_inv in H1'. destruct H1' as (nd0 & K & _ & (_ & R2 & H3 & _)).
    rewrite Hn in K. injection K as <-. pose proof (H3 n) as H3n. rewrite Nat.eqb_refl in H3n. apply (succ_get_node H3n).
    eapply succ_bind; [reflexivity|]. eapply succ_bind; [reflexivity|]. eapply succ_bind; [reflexivity|]. cbn [n_t n_edges n_names s_ne s_nodes s_edges s_nn].
    match goal with |- succ _ ?x => set (s2 := x) end.
    assert (forall c, s_edges s1 c <> None -> s_edges s2 c <> None) as K2.
    { intros c Hc. unfold s2. cbn [s_edges]. unfold upd. destruct (Nat.eq_dec c (S (s_ne s1))); [discriminate|]. destruct (Nat.eq_dec c (s_ne s1)); [discriminate|]. exact Hc. }
    assert (length (firstn (length fr) (gather 0 (n_edges nd) (fr ++ bk))) = length fr) as Lf by (rewrite firstn_length, gather_length, app_length; lia).
    assert (length (firstn (length fr) (gather 0 (shape (n_t nd)) (fr ++ bk))) = length fr) as Ls by (rewrite firstn_length, gather_length, app_length; lia).
    destruct (@connect_raw s2 (s_ne s1) (S (s_ne s1)) n (length fr) n (S (length fr)) D) as (s3 & H4 & _ & K3).
    - intros m md Hmd. unfold s2 in Hmd. cbn [s_nodes] in Hmd. unfold upd in Hmd. destruct (Nat.eq_dec m n) as [->|Hmn].
      + injection Hmd as <-. unfold rank. cbn [n_edges n_t reshape shape transpose]. split; [rewrite !app_length, Lf, Ls; reflexivity|]. intros c Hc. apply in_app_or in Hc.
        destruct Hc as [Hc|[<-|[<-|[]]]].
        * apply K2. assert (In c (gather 0 (n_edges nd) (fr ++ bk))) as Hc' by (rewrite <- (firstn_skipn (length fr)); apply in_or_app; left; exact Hc). clear Hc; rename Hc' into Hc. apply gather_In_bound in Hc; [|intros j Hj; apply (is_perm_In j Pp); exact Hj].
          apply (@keeps_reorder_axes n (fr ++ bk) s s1 _ c H1). destruct (wfx_sane W Hn) as [_ Sa]. apply Sa. exact Hc.
        * unfold s2. cbn [s_edges]. unfold upd. destruct (Nat.eq_dec (s_ne s1) (S (s_ne s1))); [discriminate|]. destruct (Nat.eq_dec (s_ne s1) (s_ne s1)); [discriminate|congruence].
        * unfold s2. cbn [s_edges]. unfold upd. destruct (Nat.eq_dec (S (s_ne s1)) (S (s_ne s1))); [discriminate|congruence].
      + rewrite H3 in Hmd. apply Nat.eqb_neq in Hmn. rewrite Hmn in Hmd. destruct (wfx_sane W Hmd) as [S1 S2]. split; [exact S1|]. intros c Hc. apply K2.
        apply (@keeps_reorder_axes n (fr ++ bk) s s1 _ c H1). apply S2. exact Hc.
    - unfold s2. cbn [s_edges]. unfold upd. destruct (Nat.eq_dec (s_ne s1) (S (s_ne s1))); [lia|]. destruct (Nat.eq_dec (s_ne s1) (s_ne s1)); [reflexivity|congruence].
    - unfold s2. cbn [s_edges]. unfold upd. destruct (Nat.eq_dec (S (s_ne s1)) (S (s_ne s1))); [reflexivity|congruence].
    - lia.
    - unfold dimat, s2. cbn [fst snd s_nodes]. unfold upd. destruct (Nat.eq_dec n n); [|congruence]. cbn [n_t reshape shape transpose]. rewrite nth_error_app2; rewrite Ls; [|lia]. rewrite Nat.sub_diag. reflexivity.
    - unfold dimat, s2. cbn [fst snd s_nodes]. unfold upd. destruct (Nat.eq_dec n n); [|congruence]. cbn [n_t reshape shape transpose]. rewrite nth_error_app2; rewrite Ls; [|lia]. replace (S (length fr) - length fr) with 1 by lia. reflexivity.
    - apply (succ_bind H4). destruct (@disable_ok es s3) as (s5 & H5).
      + intros c Hc. apply K3, K2. apply (@keeps_reorder_axes n (fr ++ bk) s s1 _ c H1). destruct (Hd c Hc) as (_ & ed & -> & _). discriminate.
      + apply (succ_bind H5). apply succ_ret.
  Qed.

  Section Iter.
  Variable iter : list nat -> list nat.
  Hypothesis iter_perm : forall l, Permutation (iter l) l.

  Lemma edge_set_ends ed p q : edge_set_is ed p q = true -> e_dis ed = false ->
    (q = None /\ e_2 ed = None /\ e_n1 ed = p) \/ exists v m a, q = Some v /\ e_2 ed = Some (m, a) /\ ((e_n1 ed = p /\ m = v) \/ (e_n1 ed = v /\ m = p)).
  Proof.
    unfold edge_set_is. intros H _. destruct (e_2 ed) as [[m a]|], q as [v|]; try discriminate.
    - right. exists v, m, a. split; [reflexivity|]. split; [reflexivity|]. apply orb_true_iff in H.
      destruct H as [H|H]; apply andb_true_iff in H; destruct H as [A B]; apply Nat.eqb_eq in A, B; auto.
    - left. apply Nat.eqb_eq in H. auto.
  Qed.

  Lemma flatten_edges_ok p q es s : wf s -> es <> [] -> NoDup es ->
    (forall c, In c es -> (exists x, slot s x = Some c) /\ exists ed, s_edges s c = Some ed /\ e_dis ed = false /\ edge_set_is ed p q = true) ->
    nameable s p -> (forall v, q = Some v -> nameable s v) ->
    succ (flatten_edges iter es) s.
  Proof using iter_perm.
    intros W Hes Nd Hd Np Nq. destruct es as [|e0 [|e1 r]] eqn:Ees; [congruence| |].
    - cbn [flatten_edges]. destruct (Hd e0 (or_introl eq_refl)) as (_ & ed & E & D & _). apply (succ_get_edge E D). apply succ_ret.
    - cbn [flatten_edges]. assert (In e0 es) as He0 by (rewrite Ees; left; reflexivity). rewrite <- Ees in *. clear Ees e1 r.
      destruct (Hd e0 He0) as (_ & ed0 & E0 & D0 & S0). apply (succ_get_edge E0 D0).
      destruct (edge_set_ends S0 D0) as [(-> & E2 & En)|(v & m & a & -> & E2 & Hor)]; rewrite E2.
      + rewrite En. assert (check_same_nodes p None es s = (s, Some tt)) as Hc by (apply check_same_ok; intros c Hc; apply (Hd c Hc)).
        apply (succ_bind Hc). 
        assert (exists nd, s_nodes s p = Some nd /\ forall c, In c es -> In c (n_edges nd)) as (nd & Hn & Hin).
        { assert (forall c, In c es -> exists nd, s_nodes s p = Some nd /\ In c (n_edges nd)) as HH.
          { intros c Hcc. destruct (Hd c Hcc) as ((x & Hx) & ed & E & D & S). destruct (edge_set_ends S D) as [(_ & E2' & <-)|(v & m & a & K & _)]; [|discriminate].
            assert (slot s (e_n1 ed, e_a1 ed) = Some c) as Hs by (apply (ends_live W Hx E); unfold ends; left; reflexivity).
            apply slot_node in Hs. destruct Hs as (d & K1 & K2). exists d. split; [exact K1|]. apply (nth_error_In _ _ K2). }
          destruct (HH e0 He0) as (nd & Hn & _). exists nd. split; [exact Hn|]. intros c Hcc. destruct (HH c Hcc) as (nd2 & K & I). rewrite Hn in K. injection K as <-. exact I. }
        apply succ_bind'; [apply (flatten_node_ok W Hn Hes Nd Hin Np)|]. intros s1 f H1.
        destruct (@disable_ok es s1) as (s2 & H2).
        { intros c Hcc. apply (@keeps_flatten_node p es s s1 _ c H1). destruct (Hd c Hcc) as (_ & ed & -> & _). discriminate. }
        apply (succ_bind H2). apply succ_ret.
      + assert (forall c, In c es -> exists ed, s_edges s c = Some ed /\ e_dis ed = false /\ edge_set_is ed (e_n1 ed0) (Some m) = true) as Hsame.
        { intros c Hc. destruct (Hd c Hc) as (_ & ed & E & D & S). exists ed. split; [exact E|]. split; [exact D|]. unfold edge_set_is in *. destruct (e_2 ed) as [[m' a']|]; [|discriminate].
          destruct Hor as [[-> ->]|[-> ->]]; [exact S|]. rewrite orb_comm. rewrite (andb_comm (_ =? _) (_ =? _)), (andb_comm (e_n1 ed =? v) (m' =? p)) in S. rewrite <- S. f_equal; apply andb_comm. }
        assert (nameable s (e_n1 ed0) /\ nameable s m) as [N1 N2] by (specialize (Nq v eq_refl); destruct Hor as [[-> ->]|[-> ->]]; auto).
        assert (check_same_nodes (e_n1 ed0) (Some m) es s = (s, Some tt)) as Hc by (apply check_same_ok; exact Hsame).
        apply (succ_bind Hc). destruct (Nat.eqb_spec (e_n1 ed0) m) as [Em|Em].
        * apply (@flatten_trace_ok m es s Hes Nd W N2). intros c Hcc. split; [apply (Hd c Hcc)|]. destruct (Hsame c Hcc) as (ed & E & D & S). rewrite Em in S. exists ed. auto.
        * destruct (perm_two (iter_perm [e_n1 ed0; m])) as [-> | ->].
          -- apply flatten_two_ok; auto. intros c Hcc. split; [apply (Hd c Hcc)|]. destruct (Hsame c Hcc) as (ed & E & D & S). exists ed. split; [exact E|]. apply joins_set; assumption.
          -- apply flatten_two_ok; auto. intros c Hcc. split; [apply (Hd c Hcc)|]. destruct (Hsame c Hcc) as (ed & E & D & S). exists ed. split; [exact E|]. apply joins_set; [|exact D].
             unfold edge_set_is in *. destruct (e_2 ed) as [[m' a']|]; [|discriminate]. rewrite orb_comm. rewrite <- S. reflexivity.
  Qed.
  End Iter.
End GTot.
