(** * GraphContract: contractions keep the graph well formed and the network's value *)
From Verif Require Import Prelude Algebra Tensor TensorFacts Einsum EinsumFacts NetworkFacts Graph GraphBase.
Set Implicit Arguments.
Unset Strict Implicit.

(** ** Positions kept by a filter *)
Definition kpos (P : nat -> bool) (j : nat) : nat := length (filter P (seq 0 j)).

Lemma kpos_nth P n j : P j = true -> j < n -> nth_error (filter P (seq 0 n)) (kpos P j) = Some j.
Proof.
  intros HP Hj. unfold kpos. replace n with (j + S (n - j - 1)) by lia.
  rewrite seq_app, filter_app. rewrite nth_error_app2 by lia. rewrite Nat.sub_diag. cbn [seq filter Nat.add].
  rewrite HP. reflexivity.
Qed.

Lemma kpos_of_nth P n k j : nth_error (filter P (seq 0 n)) k = Some j -> k = kpos P j /\ P j = true /\ j < n.
Proof.
  intros H. pose proof (nth_error_In _ _ H) as Hin. apply filter_In in Hin. destruct Hin as [Hj HP].
  apply in_seq in Hj. split; [|split; [exact HP|lia]].
  assert (nth_error (filter P (seq 0 n)) (kpos P j) = Some j) as H' by (apply kpos_nth; [exact HP|lia]).
  assert (NoDup (filter P (seq 0 n))) as HN by (apply NoDup_filter, seq_NoDup).
  apply (proj1 (NoDup_nth_error _) HN); [apply nth_error_Some; congruence|congruence].
Qed.

Lemma kpos_inj P i j : P i = true -> P j = true -> kpos P i = kpos P j -> i = j.
Proof.
  intros Hi Hj E. set (n := S (max i j)).
  pose proof (kpos_nth (n := n) Hi) as H1. pose proof (kpos_nth (n := n) Hj) as H2.
  rewrite E in H1. unfold n in *. specialize (H1 ltac:(lia)). specialize (H2 ltac:(lia)). congruence.
Qed.

Lemma kpos_lt P n j : P j = true -> j < n -> kpos P j < length (filter P (seq 0 n)).
Proof. intros HP Hj. apply nth_error_Some. rewrite (kpos_nth HP Hj). discriminate. Qed.

Lemma filter_map A B (f : A -> B) (p : B -> bool) l : filter p (map f l) = map f (filter (fun x => p (f x)) l).
Proof. induction l as [|x r IH]; [reflexivity|]. cbn. destruct (p (f x)); cbn; rewrite IH; reflexivity. Qed.

Lemma filter_positions (p : nat -> bool) (es : list nat) :
  filter p es = gather 0 es (filter (fun i => p (nth i es 0)) (seq 0 (length es))).
Proof.
  rewrite <- (gather_seq 0 es) at 1. unfold gather. rewrite filter_map. reflexivity.
Qed.

Lemma filter_ext_seq (p q : nat -> bool) n : (forall i, i < n -> p i = q i) -> filter p (seq 0 n) = filter q (seq 0 n).
Proof. intros H. apply filter_ext_in. intros i Hi. apply in_seq in Hi. apply H. lia. Qed.

Section GC.
  Context {R : csr}.
  Notation st := (@st R).
  Notation M := (@M R).
  Notation node := (@node R).
  Implicit Types (s : st) (e : eid).

  (** ** Dimensions of edges *)
  Definition edim s e : nat :=
    match s_edges s e with
    | Some ed => match dimat s (e_n1 ed, e_a1 ed) with Some d => d | None => 0 end
    | None => 0
    end.

  Lemma dimat_some (X : eid -> Prop) s p e : wfx X s -> slot s p = Some e -> exists d, dimat s p = Some d.
  Proof.
    intros W H. unfold slot in H. unfold dimat. destruct (s_nodes s (fst p)) as [nd|] eqn:E; [|discriminate].
    pose proof (wf_rank W E) as Hr. unfold rank in Hr.
    assert (snd p < length (shape (n_t nd))) as Hl by (rewrite <- Hr; apply nth_error_Some; congruence).
    destruct (nth_error (shape (n_t nd)) (snd p)) as [d|] eqn:Ed; [eauto|].
    apply nth_error_None in Ed. lia.
  Qed.

  Lemma edim_dimat s p e : wf s -> slot s p = Some e -> dimat s p = Some (edim s e).
  Proof.
    intros W H. destruct (dimat_some W H) as [d Hd].
    destruct (wf_slot W H) as (ed & H1 & H2 & H3 & H4 & H5).
    unfold edim. rewrite H1. destruct (H5 (fun x => x) (e_n1 ed, e_a1 ed)) as [_ K]; [left; reflexivity|].
    rewrite K, Hd. reflexivity.
  Qed.

  Lemma wf_fits s n nd : wf s -> s_nodes s n = Some nd -> fits (edim s) (n_t nd, n_edges nd).
  Proof.
    intros W Hn. unfold fits. cbn [fst snd].
    assert (length (shape (n_t nd)) = length (n_edges nd)) as Hl by (symmetry; apply (wf_rank W Hn)).
    apply (nth_ext _ _ 0 0).
    - rewrite map_length. exact Hl.
    - intros k Hk. rewrite Hl in Hk.
      destruct (nth_error (n_edges nd) k) as [e|] eqn:E; [|apply nth_error_None in E; lia].
      assert (slot s (n, k) = Some e) as Hs by (unfold slot; cbn; rewrite Hn; exact E).
      pose proof (edim_dimat W Hs) as Hd. unfold dimat in Hd. cbn in Hd. rewrite Hn in Hd.
      rewrite (nth_error_nth _ _ 0 Hd). symmetry. apply nth_error_nth. rewrite nth_error_map, E. reflexivity.
  Qed.

  Lemma fits_agree L (d d' : L -> nat) (x : factor L R) l : fits d x -> fits d' x -> In l (snd x) -> d l = d' l.
  Proof.
    unfold fits. intros H1 H2 Hl. rewrite H1 in H2. revert Hl. revert H2. generalize (snd x) as ls.
    induction ls as [|y r IH]; cbn; [tauto|]. intros E. injection E as E1 E2. intros [<-|H]; auto.
  Qed.

  Lemma fac_node s n nd : s_nodes s n = Some nd -> fac s n = (n_t nd, n_edges nd).
  Proof. intros H. unfold fac. rewrite H. reflexivity. Qed.

  Lemma In_net_labels s S e : wf s -> In e (net_labels (net_of s S)) <-> exists n k, In n S /\ slot s (n, k) = Some e.
  Proof.
    intros W. unfold net_labels, net_of. rewrite in_flat_map. split.
    - intros (x & Hx & He). apply in_map_iff in Hx. destruct Hx as (n & <- & Hn). unfold fac in He.
      destruct (s_nodes s n) as [nd|] eqn:E; [|contradiction]. cbn in He. apply In_nth_error in He.
      destruct He as [k Hk]. exists n, k. split; [exact Hn|]. unfold slot. cbn. rewrite E. exact Hk.
    - intros (n & k & Hn & Hs). exists (fac s n). split; [apply in_map; exact Hn|].
      unfold slot in Hs. cbn in Hs. unfold fac. destruct (s_nodes s n) as [nd|]; [|discriminate].
      cbn. apply nth_error_In in Hs. exact Hs.
  Qed.

  (** ** The loops of _remove_edges as lists of moves *)
  Fixpoint mvs (cut : list eid) (old new : nid) (i k : nat) (es : list eid) : list move :=
    match es with
    | [] => []
    | e :: r => if mem e cut then mvs cut old new (S i) k r
                else (e, ((old, i), (new, k))) :: mvs cut old new (S i) (S k) r
    end.

  Lemma move_kept_inv cut old new i k es s s' kept :
    move_kept cut old new i k es s = (s', Some kept) ->
    kept = filter (fun e => negb (mem e cut)) es /\ steps (mvs cut old new i k es) s = (s', Some tt).
  Proof.
    revert i k s kept. induction es as [|e r IH]; intros i k s kept H; cbn [move_kept mvs filter] in *.
    - injection H as <- <-. split; reflexivity.
    - destruct (mem e cut) eqn:E; cbn [negb].
      + apply IH in H. exact H.
      + apply bind_inv in H. destruct H as (u & s1 & H1 & H).
        apply bind_inv in H. destruct H as (kept' & s2 & H2 & H). injection H as <- <-.
        apply IH in H2. destruct H2 as [-> H2]. split; [reflexivity|].
        unfold steps. cbn [mfor fst snd]. unfold bind. rewrite H1. exact H2.
  Qed.

  Lemma mvs_eq cut old new k0 pre r :
    let P := fun j => negb (mem (nth j (pre ++ r) 0) cut) in
    mvs cut old new (length pre) (k0 + kpos P (length pre)) r
    = map (fun j => (nth j (pre ++ r) 0, ((old, j), (new, k0 + kpos P j)))) (filter P (seq (length pre) (length r))).
  Proof.
    revert pre. induction r as [|e r IH]; intros pre; cbn zeta; [reflexivity|].
    cbn [mvs length seq filter].
    assert (nth (length pre) (pre ++ e :: r) 0 = e) as En by (rewrite app_nth2, Nat.sub_diag by lia; reflexivity).
    specialize (IH (pre ++ [e])). cbn zeta in IH. rewrite app_length in IH. cbn [length] in IH.
    rewrite <- app_assoc in IH. cbn [app] in IH. rewrite Nat.add_1_r in IH.
    set (P := fun j => negb (mem (nth j (pre ++ e :: r) 0) cut)) in *.
    assert (kpos P (S (length pre)) = kpos P (length pre) + if P (length pre) then 1 else 0) as Ek.
    { unfold kpos. rewrite seq_S, filter_app, app_length. cbn [filter Nat.add].
      destruct (P (length pre)); reflexivity. }
    rewrite Ek in IH. change (P (length pre)) with (negb (mem (nth (length pre) (pre ++ e :: r) 0) cut)) in *. rewrite En in *.
    destruct (mem e cut) eqn:E; cbn [negb] in *.
    - rewrite Nat.add_0_r in IH. exact IH.
    - cbn [map]. rewrite En. f_equal. rewrite <- IH. f_equal. lia.
  Qed.

  Definition keepP (cut es : list eid) (j : nat) : bool := negb (mem (nth j es 0) cut).

  Lemma mvs_eq0 cut old new k0 es :
    mvs cut old new 0 k0 es
    = map (fun j => (nth j es 0, ((old, j), (new, k0 + kpos (keepP cut es) j)))) (filter (keepP cut es) (seq 0 (length es))).
  Proof.
    pose proof (@mvs_eq cut old new k0 [] es) as H. cbn zeta in H. cbn [length app] in H.
    unfold kpos at 1 in H. cbn [seq filter length] in H. rewrite Nat.add_0_r in H. exact H.
  Qed.

  Definition kept_of (cut es : list eid) : list eid := filter (fun e => negb (mem e cut)) es.

  Lemma kept_gather cut es : kept_of cut es = gather 0 es (filter (keepP cut es) (seq 0 (length es))).
  Proof. unfold kept_of. rewrite filter_positions. reflexivity. Qed.

  Lemma kept_nth cut es j : keepP cut es j = true -> j < length es ->
    nth_error (kept_of cut es) (kpos (keepP cut es) j) = nth_error es j.
  Proof.
    intros HP Hj. rewrite kept_gather, nth_error_gather, (kpos_nth HP Hj).
    symmetry. apply nth_error_nth'. exact Hj.
  Qed.
  Lemma kept_length cut es : length (kept_of cut es) = length (filter (keepP cut es) (seq 0 (length es))).
  Proof. rewrite kept_gather, gather_length. reflexivity. Qed.

  (** the rest of the heap after _remove_edges *)
  Definition remove_map cut d1 d2 (n1 n2 N : nid) (p : nid * nat) : nid * nat :=
    if Nat.eqb (fst p) n1 then (N, kpos (keepP cut d1) (snd p))
    else if Nat.eqb (fst p) n2 then (N, length (kept_of cut d1) + kpos (keepP cut d2) (snd p))
    else p.

  (** the heap after the edges of n1 and n2 outside [cut] have moved to N, and n1, n2 got fresh edges *)
  Definition remove_post cut (n1 n2 N : nid) s s' (d1 d2 dN : node) : Prop :=
    let ne := s_ne s in
    let l1 := length (n_edges d1) in
    let l2 := length (n_edges d2) in
    n1 <> n2 /\
    (forall e, In e cut -> exists ed, s_edges s e = Some ed /\ joins ed n1 n2 = true) /\
    s_nn s' = s_nn s /\ s_ne s' = ne + l1 + l2 /\
    (forall m, s_nodes s' m =
       if Nat.eqb m n1 then Some (Node (n_t d1) (seq ne l1) (n_names d1))
       else if Nat.eqb m n2 then Some (Node (n_t d2) (seq (ne + l1) l2) (n_names d2))
       else if Nat.eqb m N then Some (Node (n_t dN) (kept_of cut (n_edges d1) ++ kept_of cut (n_edges d2)) (n_names dN))
       else s_nodes s m) /\
    (forall e, e < ne -> ~ In e cut -> s_edges s' e =
       option_map (app_moves (moves_on e (mvs cut n1 N 0 0 (n_edges d1) ++ mvs cut n2 N 0 (length (kept_of cut (n_edges d1))) (n_edges d2)))) (s_edges s e)) /\
    (forall j, j < l1 -> ~ In (ne + j) cut -> s_edges s' (ne + j) = Some (Edge n1 j None false)) /\
    (forall j, j < l2 -> ~ In (ne + l1 + j) cut -> s_edges s' (ne + l1 + j) = Some (Edge n2 j None false)) /\
    (forall e ed, s_edges s' e = Some ed -> e < ne + l1 + l2 \/ exists ed0, s_edges s e = Some ed0).

  Lemma remove_edges_inv cut n1 n2 N s s' (x : unit) d1 d2 dN :
    s_nodes s n1 = Some d1 -> s_nodes s n2 = Some d2 -> s_nodes s N = Some dN -> N <> n1 -> N <> n2 ->
    length (n_edges dN) = length (kept_of cut (n_edges d1)) + length (kept_of cut (n_edges d2)) ->
    remove_edges cut n1 n2 N s = (s', Some x) -> remove_post cut n1 n2 N s s' d1 d2 dN.
  Proof.
    intros Hn1 Hn2 HN N1 N2 HlN H. unfold remove_post. cbn zeta. unfold remove_edges in H.
    apply bind_inv in H. destruct H as (u & s1 & H1 & H). apply guard_inv in H1. destruct H1 as [Hne ->].
    apply negb_true_iff in Hne. apply Nat.eqb_neq in Hne.
    apply bind_inv in H. destruct H as (d1' & s1 & H1 & H). apply get_node_inv in H1. destruct H1 as [-> H1].
    rewrite Hn1 in H1. injection H1 as <-.
    apply bind_inv in H. destruct H as (d2' & s1 & H1 & H). apply get_node_inv in H1. destruct H1 as [-> H1].
    rewrite Hn2 in H1. injection H1 as <-.
    apply bind_inv in H. destruct H as (u' & s1 & Hc & H).
    assert (s1 = s /\ forall e, In e cut -> exists ed, s_edges s e = Some ed /\ joins ed n1 n2 = true) as [-> Hcut].
    { clear - Hc. revert s s1 Hc. induction cut as [|c r IH]; intros s s1 H; cbn [check_cut] in H.
      - injection H as <- _. split; [reflexivity|]. intros e [].
      - apply bind_inv in H. destruct H as (ed & s2 & H1 & H). apply get_edge_inv in H1. destruct H1 as (-> & H1 & H2).
        apply bind_inv in H. destruct H as (u & s2 & H3 & H). apply guard_inv in H3. destruct H3 as [H3 ->].
        apply IH in H. destruct H as [-> H]. split; [reflexivity|]. intros e [<-|He]; eauto. }
    apply bind_inv in H. destruct H as (k1 & s1 & H1 & H). apply move_kept_inv in H1. destruct H1 as [-> H1].
    apply bind_inv in H. destruct H as (k2 & s2 & H2 & H). apply move_kept_inv in H2. destruct H2 as [-> H2].
    fold (kept_of cut (n_edges d1)) in *. fold (kept_of cut (n_edges d2)) in *.
    apply steps_inv in H1. destruct H1 as (A1 & A2 & A3 & A4).
    apply steps_inv in H2. destruct H2 as (B1 & B2 & B3 & B4).
    apply bind_inv in H. destruct H as (u2 & s3 & H3 & H).
    apply (@add_all_inv _ N 0 _ false s2 s3 u2 dN) in H3; [|rewrite B1, A1; exact HN|rewrite app_length; lia].
    cbn [firstn app] in H3. destruct H3 as (C1 & C2 & C3 & C4).
    apply bind_inv in H. destruct H as (u3 & s4 & H4 & H).
    apply (@fresh_edges_inv _ n1 s3 s4 u3 d1) in H4.
    2:{ rewrite C1. destruct (Nat.eqb_spec n1 N); [congruence|]. rewrite B1, A1. exact Hn1. }
    destruct H4 as (D1 & D2 & D3 & D4).
    apply bind_inv in H. destruct H as (u4 & s5 & H5 & H).
    apply (@fresh_edges_inv _ n2 s4 s5 u4 d2) in H5.
    2:{ rewrite D1. destruct (Nat.eqb_spec n2 n1); [congruence|]. rewrite C1.
        destruct (Nat.eqb_spec n2 N); [congruence|]. rewrite B1, A1. exact Hn2. }
    destruct H5 as (E1 & E2 & E3 & E4).
    apply disable_all_inv in H. destruct H as (F1 & F2 & F3 & F4).
    assert (s_ne s3 = s_ne s) as Ene by congruence.
    rewrite D3, Ene in *.
    split; [exact Hne|]. split; [exact Hcut|]. split; [congruence|]. split; [congruence|]. split; [|split; [|split; [|split]]].
    - intros m. rewrite F1, E1, D1, C1, B1, A1.
      destruct (Nat.eqb_spec m n1) as [->|Hm1].
      + destruct (Nat.eqb_spec n1 n2); [congruence|]. reflexivity.
      + reflexivity.
    - intros e He Hce. rewrite F4. apply mem_nIn in Hce. rewrite Hce, E4.
      rewrite (proj2 (Nat.leb_nle _ e)) by lia. cbn [andb]. rewrite D4.
      rewrite (proj2 (Nat.leb_nle _ e)) by lia. cbn [andb]. rewrite C2, B4, A4.
      unfold moves_on. rewrite filter_app, map_app. unfold app_moves.
      destruct (s_edges s e); cbn [option_map]; [|reflexivity]. rewrite fold_left_app. reflexivity.
    - intros j Hj Hcj. rewrite F4. apply mem_nIn in Hcj. rewrite Hcj, E4.
      rewrite (proj2 (Nat.leb_nle (s_ne s + length (n_edges d1)) (s_ne s + j))) by lia. cbn [andb]. rewrite D4.
      rewrite (proj2 (Nat.leb_le (s_ne s) (s_ne s + j))) by lia.
      rewrite (proj2 (Nat.ltb_lt (s_ne s + j) (s_ne s + length (n_edges d1)))) by lia. cbn [andb].
      do 2 f_equal. lia.
    - intros j Hj Hcj. rewrite F4. apply mem_nIn in Hcj. rewrite Hcj, E4.
      rewrite (proj2 (Nat.leb_le (s_ne s + length (n_edges d1)) (s_ne s + length (n_edges d1) + j))) by lia.
      rewrite (proj2 (Nat.ltb_lt (s_ne s + length (n_edges d1) + j) (s_ne s + length (n_edges d1) + length (n_edges d2)))) by lia. cbn [andb].
      do 2 f_equal. lia.
    - intros e ed He.
      destruct (Nat.ltb_spec e (s_ne s + length (n_edges d1) + length (n_edges d2))) as [|Hge]; [left; assumption|right].
      rewrite F4, E4 in He.
      rewrite (proj2 (Nat.ltb_nlt e (s_ne s + length (n_edges d1) + length (n_edges d2)))) in He by lia.
      rewrite andb_false_r in He. rewrite D4 in He.
      rewrite (proj2 (Nat.ltb_nlt e (s_ne s + length (n_edges d1)))) in He by lia.
      rewrite andb_false_r in He. rewrite C2, B4, A4 in He.
      destruct (s_edges s e) as [ed0|]; [eauto|]. cbn in He. destruct (mem e cut); discriminate.
  Qed.

  Definition lonely s (N : nid) : Prop := forall k e, slot s (N, k) = Some e -> s_edges s e = Some (Edge N k None false).

  Lemma joins_ends ed n1 n2 : joins ed n1 n2 = true ->
    forall p, In p (ends ed) -> fst p = n1 \/ fst p = n2.
  Proof.
    unfold joins, ends. intros H p Hp. apply andb_true_iff in H. destruct H as [_ H].
    destruct (e_2 ed) as [[m2 a2]|]; [|discriminate].
    apply orb_true_iff in H. destruct H as [H|H]; apply andb_true_iff in H; destruct H as [H1 H2];
      apply Nat.eqb_eq in H1, H2; destruct Hp as [<-|[<-|[]]]; cbn; auto.
  Qed.

  Lemma remove_post_wf cut n1 n2 N s s' (d1 d2 dN : node) ax1 ax2 :
    wf s -> lonely s N ->
    s_nodes s n1 = Some d1 -> s_nodes s n2 = Some d2 -> s_nodes s N = Some dN -> N <> n1 -> N <> n2 ->
    (forall j, j < length (n_edges d1) -> (In j ax1 <-> In (nth j (n_edges d1) 0) cut)) ->
    (forall j, j < length (n_edges d2) -> (In j ax2 <-> In (nth j (n_edges d2) 0) cut)) ->
    shape (n_t dN) = gather 0 (shape (n_t d1)) (free_axes (rank (n_t d1)) ax1)
                     ++ gather 0 (shape (n_t d2)) (free_axes (rank (n_t d2)) ax2) ->
    (length (n_edges dN) = length (kept_of cut (n_edges d1)) + length (kept_of cut (n_edges d2)) -> remove_post cut n1 n2 N s s' d1 d2 dN) ->
    wf s' /\
    s_nodes s' N = Some (Node (n_t dN) (free_labels 0 (n_edges d1) ax1 ++ free_labels 0 (n_edges d2) ax2) (n_names dN)) /\
    (forall m, m <> n1 -> m <> n2 -> m <> N -> s_nodes s' m = s_nodes s m) /\ s_nn s' = s_nn s /\
    kept_of cut (n_edges d1) = free_labels 0 (n_edges d1) ax1 /\
    kept_of cut (n_edges d2) = free_labels 0 (n_edges d2) ax2.
  Proof.
    intros W Hlon Hn1 Hn2 HN N1 N2 Hax1 Hax2 Hsh H.
    pose proof (wf_rank W Hn1) as R1. pose proof (wf_rank W Hn2) as R2. pose proof (wf_rank W HN) as RN.
    assert (filter (keepP cut (n_edges d1)) (seq 0 (length (n_edges d1))) = free_axes (length (n_edges d1)) ax1) as F1.
    { apply filter_ext_seq. intros i Hi. unfold keepP. f_equal. apply eq_true_iff_eq. rewrite !mem_In. symmetry. apply Hax1. exact Hi. }
    assert (filter (keepP cut (n_edges d2)) (seq 0 (length (n_edges d2))) = free_axes (length (n_edges d2)) ax2) as F2.
    { apply filter_ext_seq. intros i Hi. unfold keepP. f_equal. apply eq_true_iff_eq. rewrite !mem_In. symmetry. apply Hax2. exact Hi. }
    assert (kept_of cut (n_edges d1) = free_labels 0 (n_edges d1) ax1) as K1.
    { rewrite kept_gather. unfold free_labels. exact (f_equal (gather 0 (n_edges d1)) F1). }
    assert (kept_of cut (n_edges d2) = free_labels 0 (n_edges d2) ax2) as K2.
    { rewrite kept_gather. unfold free_labels. exact (f_equal (gather 0 (n_edges d2)) F2). }
    assert (length (n_edges dN) = length (kept_of cut (n_edges d1)) + length (kept_of cut (n_edges d2))) as HlN.
    { rewrite RN. unfold rank. rewrite Hsh, app_length, !gather_length, !kept_length, F1, F2, R1, R2. reflexivity. }
    pose proof (H HlN) as Inv. unfold remove_post in Inv. cbn zeta in Inv.
    destruct Inv as (Hne & Hcut & I1 & I2 & I3 & I4 & I5 & I6 & I7).
    set (es1 := n_edges d1) in *. set (es2 := n_edges d2) in *.
    set (sg := remove_map cut es1 es2 n1 n2 N).
    assert (forall p e, slot s p = Some e -> e < s_ne s) as Hlt by (intros p e Hp; apply (slot_lt W Hp)).
    assert (forall e, In e cut -> e < s_ne s) as Hcutlt.
    { intros e He. destruct (Hcut e He) as (ed & E & _). apply (wf_ne W E). }
    (* cut edges live only on n1, n2 *)
    assert (forall p e, slot s p = Some e -> In e cut -> fst p = n1 \/ fst p = n2) as Hcutslot.
    { intros p e Hp He. destruct (Hcut e He) as (ed & E & J). destruct (wf_slot W Hp) as (ed' & E' & _ & Hin & _).
      rewrite E in E'. injection E' as <-. apply (joins_ends J Hin). }
    split; [|split; [|split; [|split; [|split]]]]; auto.
    2:{ rewrite I3. destruct (Nat.eqb_spec N n1), (Nat.eqb_spec N n2); try congruence. rewrite Nat.eqb_refl, K1, K2. reflexivity. }
    2:{ intros m M1 M2 M3. rewrite I3. destruct (Nat.eqb_spec m n1), (Nat.eqb_spec m n2), (Nat.eqb_spec m N); congruence. }
    (* where a surviving end goes *)
    assert (forall e ed q, s_edges s e = Some ed -> ~ In e cut -> In q (ends ed) -> slot s q = Some e ->
              (fst q = N -> False) -> slot s' (sg q) = Some e /\ dimat s' (sg q) = dimat s q) as Hgo.
    { intros e ed [m k] He Hce Hq Hs HqN. cbn [fst] in HqN. unfold sg, remove_map. cbn [fst snd].
      unfold slot in Hs. cbn [fst snd] in Hs.
      destruct (Nat.eqb_spec m n1) as [->|M1].
      - rewrite Hn1 in Hs. fold es1 in Hs.
        assert (k < length es1) as Hk by (apply nth_error_Some; congruence).
        assert (keepP cut es1 k = true) as HP by (unfold keepP; rewrite (nth_error_nth _ _ 0 Hs); apply negb_true_iff, mem_nIn; exact Hce).
        pose proof (kpos_lt HP Hk) as Hkl. unfold slot, dimat. cbn [fst snd]. rewrite I3, Hn1.
        destruct (Nat.eqb_spec N n1), (Nat.eqb_spec N n2); try congruence. rewrite Nat.eqb_refl. cbn [n_edges n_t]. split.
        + rewrite nth_error_app1 by (rewrite kept_length; exact Hkl). rewrite kept_nth by assumption. exact Hs.
        + rewrite Hsh, nth_error_app1 by (rewrite gather_length, <- R1, <- F1; exact Hkl).
          rewrite nth_error_gather, <- R1, <- F1, kpos_nth by assumption.
          symmetry. apply nth_error_nth'. unfold rank in R1. rewrite <- R1. exact Hk.
      - destruct (Nat.eqb_spec m n2) as [->|M2].
        + rewrite Hn2 in Hs. fold es2 in Hs.
          assert (k < length es2) as Hk by (apply nth_error_Some; congruence).
          assert (keepP cut es2 k = true) as HP by (unfold keepP; rewrite (nth_error_nth _ _ 0 Hs); apply negb_true_iff, mem_nIn; exact Hce).
          pose proof (kpos_lt HP Hk) as Hkl. unfold slot, dimat. cbn [fst snd]. rewrite I3, Hn2.
          destruct (Nat.eqb_spec N n1), (Nat.eqb_spec N n2); try congruence. rewrite Nat.eqb_refl. cbn [n_edges n_t]. split.
          * rewrite nth_error_app2 by lia. replace (length (kept_of cut es1) + kpos (keepP cut es2) k - length (kept_of cut es1)) with (kpos (keepP cut es2) k) by lia.
            rewrite kept_nth by assumption. exact Hs.
          * assert (length (gather 0 (shape (n_t d1)) (free_axes (rank (n_t d1)) ax1)) = length (kept_of cut es1)) as El
              by (rewrite gather_length, <- R1, <- F1, kept_length; reflexivity).
            rewrite Hsh, nth_error_app2 by lia. rewrite El.
            replace (length (kept_of cut es1) + kpos (keepP cut es2) k - length (kept_of cut es1)) with (kpos (keepP cut es2) k) by lia.
            rewrite nth_error_gather, <- R2, <- F2, kpos_nth by assumption.
            symmetry. apply nth_error_nth'. unfold rank in R2. rewrite <- R2. exact Hk.
        + assert (s_nodes s' m = s_nodes s m) as Em.
          { rewrite I3. destruct (Nat.eqb_spec m n1), (Nat.eqb_spec m n2), (Nat.eqb_spec m N); try congruence; exfalso; auto. }
          unfold slot, dimat. cbn [fst snd]. rewrite Em. auto. }
    (* ends of a surviving edge not on N *)
    assert (forall p e ed, slot s p = Some e -> fst p <> N -> s_edges s e = Some ed -> forall q, In q (ends ed) -> fst q <> N) as HnotN.
    { intros p e ed Hp HpN He q Hq E. destruct q as [qn qk]. cbn in E. subst qn.
      destruct (wf_slot W Hp) as (ed' & E1 & _ & Hin & _ & Hall). rewrite He in E1. injection E1 as <-.
      destruct (Hall (fun f => f) _ Hq) as [Hsq _]. apply Hlon in Hsq. rewrite He in Hsq. injection Hsq as ->.
      cbn in Hin. destruct Hin as [<-|[]]. apply HpN. reflexivity. }
    (* the renaming of a surviving edge *)
    assert (forall p e, slot s p = Some e -> fst p <> N -> ~ In e cut ->
       exists ed ed', s_edges s e = Some ed /\ s_edges s' e = Some ed' /\
            (e_dis ed = false -> e_dis ed' = false) /\ Permutation (ends ed') (map sg (ends ed)) /\
            (forall q q', In q (ends ed) -> In q' (ends ed) -> sg q = sg q' -> q = q') /\
            (~ False -> forall q, In q (ends ed) -> slot s' (sg q) = Some e /\ dimat s' (sg q) = dimat s q)) as Hsurv.
    { intros p e Hp HpN Hce. destruct (wf_slot W Hp) as (ed & E & Hd & Hin & Hnd & Hall).
      specialize (Hall (fun f => f)).
      exists ed. rewrite (I4 e (Hlt _ _ Hp) Hce), E. cbn [option_map].
      set (ml := moves_on e _). exists (app_moves ml ed).
      assert (forall q, In q (ends ed) -> slot s q = Some e) as Hsl by (intros q Hq; apply Hall; exact Hq).
      assert (forall m, In m ml -> In (fst m) (ends ed) /\ sg (fst m) = snd m /\ (fst (fst m) = n1 \/ fst (fst m) = n2) /\ fst (snd m) = N) as Hml.
      { intros [o q] Hm. unfold ml, moves_on in Hm. apply in_map_iff in Hm. destruct Hm as ([f oq] & Eq & Hm). cbn in Eq. subst oq.
        apply filter_In in Hm. destruct Hm as [Hm Hf]. cbn in Hf. apply Nat.eqb_eq in Hf. subst f.
        apply in_app_or in Hm. destruct Hm as [Hm|Hm]; rewrite mvs_eq0 in Hm; apply in_map_iff in Hm;
          destruct Hm as (j & Ej & Hj); injection Ej as E1 <- <-; apply filter_In in Hj; destruct Hj as [Hj HP];
          apply in_seq in Hj; cbn [fst snd].
        - assert (slot s (n1, j) = Some e) as Hs.
          { unfold slot. cbn [fst snd]. rewrite Hn1. fold es1. rewrite <- E1. apply nth_error_nth'. lia. }
          destruct (wf_slot W Hs) as (ed'' & E'' & _ & Hin'' & _). rewrite E in E''. injection E'' as <-.
          split; [exact Hin''|]. split; [|split; [left|]; reflexivity].
          unfold sg, remove_map. cbn [fst snd]. rewrite Nat.eqb_refl. f_equal.
        - assert (slot s (n2, j) = Some e) as Hs.
          { unfold slot. cbn [fst snd]. rewrite Hn2. fold es2. rewrite <- E1. apply nth_error_nth'. lia. }
          destruct (wf_slot W Hs) as (ed'' & E'' & _ & Hin'' & _). rewrite E in E''. injection E'' as <-.
          split; [exact Hin''|]. split; [|split; [right|]; reflexivity].
          unfold sg, remove_map. cbn [fst snd]. destruct (Nat.eqb_spec n2 n1); [congruence|]. rewrite Nat.eqb_refl. reflexivity. }
      assert (forall q q', In q (ends ed) -> In q' (ends ed) -> sg q = sg q' -> q = q') as Hinj.
      { intros [a i] [b j] Hq Hq' Es.
        pose proof (Hsl _ Hq) as Sq. pose proof (Hsl _ Hq') as Sq'.
        pose proof (HnotN p e ed Hp HpN E _ Hq) as Na. pose proof (HnotN p e ed Hp HpN E _ Hq') as Nb. cbn in Na, Nb.
        unfold slot in Sq, Sq'. cbn [fst snd] in Sq, Sq'. unfold sg, remove_map in Es. cbn [fst snd] in Es.
        assert (forall k es, nth_error es k = Some e -> keepP cut es k = true) as HPk.
        { intros k es Hk. unfold keepP. rewrite (nth_error_nth _ _ 0 Hk). apply negb_true_iff, mem_nIn. exact Hce. }
        assert (forall k es, nth_error es k = Some e -> k < length es) as HPl by (intros k es Hk; apply nth_error_Some; congruence).
        destruct (Nat.eqb_spec a n1) as [->|A1]; [|destruct (Nat.eqb_spec a n2) as [->|A2]];
          (destruct (Nat.eqb_spec b n1) as [->|B1]; [|destruct (Nat.eqb_spec b n2) as [->|B2]]);
          try (injection Es as Es; congruence); try (injection Es as Es _; congruence).
        - rewrite Hn1 in Sq, Sq'. injection Es as Es. f_equal. apply (@kpos_inj (keepP cut es1)); auto.
        - rewrite Hn1 in Sq. rewrite Hn2 in Sq'. injection Es as Es. exfalso. fold es1 in Sq.
          pose proof (kpos_lt (HPk _ _ Sq) (HPl _ _ Sq)) as Hk. rewrite <- kept_length in Hk. lia.
        - rewrite Hn2 in Sq. rewrite Hn1 in Sq'. injection Es as Es. exfalso. fold es1 in Sq'.
          pose proof (kpos_lt (HPk _ _ Sq') (HPl _ _ Sq')) as Hk. rewrite <- kept_length in Hk. lia.
        - rewrite Hn2 in Sq, Sq'. injection Es as Es. f_equal. apply (@kpos_inj (keepP cut es2)); auto. lia. }
      assert (NoDup (map fst ml)) as Nf.
      { unfold ml, moves_on. rewrite map_map. rewrite filter_app, map_app. apply NoDup_app_iff.
        rewrite !mvs_eq0, !filter_map, !map_map. cbn [fst snd]. repeat split.
        - apply NoDup_map_in; [intros; congruence|]. apply NoDup_filter, NoDup_filter, seq_NoDup.
        - apply NoDup_map_in; [intros; congruence|]. apply NoDup_filter, NoDup_filter, seq_NoDup.
        - intros q Hq1 Hq2. apply in_map_iff in Hq1, Hq2. destruct Hq1 as (j1 & <- & _). destruct Hq2 as (j2 & Ej & _). congruence. }
      assert (NoDup (map snd ml)) as Ns.
      { rewrite (map_ext_in snd (fun m => sg (fst m))) by (intros m Hm; symmetry; apply Hml; exact Hm).
        rewrite <- map_map. apply NoDup_map_in; [|exact Nf].
        intros q q' Hq Hq'. apply in_map_iff in Hq, Hq'. destruct Hq as (m & <- & Hm). destruct Hq' as (m' & <- & Hm').
        apply Hinj; apply Hml; assumption. }
      destruct (@app_moves_ends ed ml sg Hnd Nf Ns) as [HP HD].
      - intros q Hq. apply in_map_iff in Hq. destruct Hq as (m & <- & Hm). apply Hml. exact Hm.
      - intros q Hq Hqe. exfalso. apply in_map_iff in Hq. destruct Hq as (m & <- & Hm).
        apply (HnotN p e ed Hp HpN E _ Hqe). apply Hml. exact Hm.
      - intros m Hm. apply Hml. exact Hm.
      - intros [a i] Hq Hnm. pose proof (Hsl _ Hq) as Sq. unfold slot in Sq. cbn [fst snd] in Sq.
        unfold sg, remove_map. cbn [fst snd].
        assert (forall es, nth_error es i = Some e -> In i (filter (keepP cut es) (seq 0 (length es)))) as Hi.
        { intros es Hes. apply filter_In. split; [apply in_seq; split; [lia|]; cbn; apply nth_error_Some; congruence|].
          unfold keepP. rewrite (nth_error_nth _ _ 0 Hes). apply negb_true_iff, mem_nIn. exact Hce. }
        destruct (Nat.eqb_spec a n1) as [->|A1].
        + exfalso. apply Hnm. rewrite Hn1 in Sq. fold es1 in Sq. apply in_map_iff.
          exists ((n1, i), (N, 0 + kpos (keepP cut es1) i)). split; [reflexivity|].
          unfold ml, moves_on. apply in_map_iff. exists (e, ((n1, i), (N, 0 + kpos (keepP cut es1) i))). split; [reflexivity|].
          apply filter_In. split; [|cbn; apply Nat.eqb_refl]. apply in_or_app. left. rewrite mvs_eq0. apply in_map_iff.
          exists i. split; [rewrite (nth_error_nth _ _ 0 Sq); reflexivity|]. apply Hi. exact Sq.
        + destruct (Nat.eqb_spec a n2) as [->|A2]; [|reflexivity].
          exfalso. apply Hnm. rewrite Hn2 in Sq. fold es2 in Sq. apply in_map_iff.
          exists ((n2, i), (N, length (kept_of cut es1) + kpos (keepP cut es2) i)). split; [reflexivity|].
          unfold ml, moves_on. apply in_map_iff. exists (e, ((n2, i), (N, length (kept_of cut es1) + kpos (keepP cut es2) i))). split; [reflexivity|].
          apply filter_In. split; [|cbn; apply Nat.eqb_refl]. apply in_or_app. right. rewrite mvs_eq0. apply in_map_iff.
          exists i. split; [rewrite (nth_error_nth _ _ 0 Sq); reflexivity|]. apply Hi. exact Sq.
      - split; [reflexivity|]. split; [reflexivity|]. split; [exact HD|]. split; [exact HP|]. split; [exact Hinj|].
        intros _ q Hq. apply (Hgo e ed q E Hce Hq (Hsl _ Hq)). apply (HnotN p e ed Hp HpN E _ Hq). }
    apply (@wfx_rename _ (fun _ => False) s s').
    - intros m nd Hm. rewrite I3 in Hm. destruct (Nat.eqb_spec m n1) as [->|M1].
      { injection Hm as <-. cbn. rewrite seq_length. exact R1. }
      destruct (Nat.eqb_spec m n2) as [->|M2].
      { injection Hm as <-. cbn. rewrite seq_length. exact R2. }
      destruct (Nat.eqb_spec m N) as [->|M3].
      { injection Hm as <-. cbn. rewrite app_length. rewrite <- RN. lia. }
      apply (wf_rank W Hm).
    - intros m nd Hm. rewrite I1. rewrite I3 in Hm. destruct (Nat.eqb_spec m n1) as [->|M1]; [apply (wf_nn W Hn1)|].
      destruct (Nat.eqb_spec m n2) as [->|M2]; [apply (wf_nn W Hn2)|].
      destruct (Nat.eqb_spec m N) as [->|M3]; [apply (wf_nn W HN)|]. apply (wf_nn W Hm).
    - intros e ed He. rewrite I2. destruct (I7 e ed He) as [|[ed0 H0]]; [lia|]. pose proof (wf_ne W H0). lia.
    - intros [m k] e Hs. cbn [fst snd].
      assert (forall e, In e cut -> e >= s_ne s -> False) as Hcl by (intros f Hf Hge; pose proof (Hcutlt f Hf); lia).
      unfold slot in Hs. cbn [fst snd] in Hs. rewrite I3 in Hs. destruct (Nat.eqb_spec m n1) as [->|M1].
      { left. cbn [n_edges] in Hs.
        assert (k < length es1) as Hk by (rewrite <- (seq_length (length es1) (s_ne s)); apply nth_error_Some; congruence).
        rewrite (nth_error_nth' _ 0) in Hs by (rewrite seq_length; exact Hk). rewrite seq_nth in Hs by exact Hk. injection Hs as <-.
        apply I5; [exact Hk|]. intros K. apply (Hcl _ K). lia. }
      destruct (Nat.eqb_spec m n2) as [->|M2].
      { left. cbn [n_edges] in Hs.
        assert (k < length es2) as Hk by (rewrite <- (seq_length (length es2) (s_ne s + length es1)); apply nth_error_Some; congruence).
        rewrite (nth_error_nth' _ 0) in Hs by (rewrite seq_length; exact Hk). rewrite seq_nth in Hs by exact Hk. injection Hs as <-.
        apply I6; [exact Hk|]. intros K. apply (Hcl _ K). lia. }
      destruct (Nat.eqb_spec m N) as [->|M3].
      { right. cbn [n_edges] in Hs.
        destruct (Nat.ltb_spec k (length (kept_of cut es1))) as [Hk|Hk].
        - rewrite nth_error_app1 in Hs by exact Hk.
          pose proof (nth_error_In _ _ Hs) as Hin. unfold kept_of in Hin. apply filter_In in Hin. destruct Hin as [_ Hnc].
          apply negb_true_iff, mem_nIn in Hnc.
          rewrite kept_gather, nth_error_gather in Hs.
          destruct (nth_error (filter (keepP cut es1) (seq 0 (length es1))) k) as [j|] eqn:Ej; [|discriminate].
          apply kpos_of_nth in Ej. destruct Ej as (-> & HPj & Hj). injection Hs as Hs.
          assert (slot s (n1, j) = Some e) as Sj by (unfold slot; cbn; rewrite Hn1; rewrite <- Hs; apply nth_error_nth'; exact Hj).
          destruct (Hsurv (n1, j) e Sj) as (ed & ed' & G); [cbn; congruence|exact Hnc|].
          exists sg, (n1, j), ed, ed'. split; [exact Sj|]. split; [|exact G].
          unfold sg, remove_map. cbn [fst snd]. rewrite Nat.eqb_refl. reflexivity.
        - rewrite nth_error_app2 in Hs by exact Hk.
          pose proof (nth_error_In _ _ Hs) as Hin. unfold kept_of in Hin. apply filter_In in Hin. destruct Hin as [_ Hnc].
          apply negb_true_iff, mem_nIn in Hnc.
          rewrite (kept_gather cut es2), nth_error_gather in Hs.
          destruct (nth_error (filter (keepP cut es2) (seq 0 (length es2))) (k - length (kept_of cut es1))) as [j|] eqn:Ej; [|discriminate].
          apply kpos_of_nth in Ej. destruct Ej as (Ek & HPj & Hj). injection Hs as Hs.
          assert (slot s (n2, j) = Some e) as Sj by (unfold slot; cbn; rewrite Hn2; rewrite <- Hs; apply nth_error_nth'; exact Hj).
          destruct (Hsurv (n2, j) e Sj) as (ed & ed' & G); [cbn; congruence|exact Hnc|].
          exists sg, (n2, j), ed, ed'. split; [exact Sj|]. split; [|exact G].
          unfold sg, remove_map. cbn [fst snd]. destruct (Nat.eqb_spec n2 n1); [congruence|]. rewrite Nat.eqb_refl. f_equal. lia. }
      right. assert (slot s (m, k) = Some e) as Sj by exact Hs.
      assert (~ In e cut) as Hnc by (intros K; destruct (Hcutslot _ _ Sj K); cbn in *; congruence).
      destruct (Hsurv (m, k) e Sj) as (ed & ed' & G); [exact M3|exact Hnc|].
      exists sg, (m, k), ed, ed'. split; [exact Sj|]. split; [|exact G].
      unfold sg, remove_map. cbn [fst snd]. destruct (Nat.eqb_spec m n1), (Nat.eqb_spec m n2); congruence.
    - exact W.
  Qed.
End GC.
