(** * SerialJson: the round trip through JSON *)
From Coq Require Import String Permutation.
From Verif Require Import Prelude Res Algebra Tensor ListFacts Serial SerialSpec SerialCore SerialCopy.
Set Implicit Arguments.
Unset Strict Implicit.
Open Scope list_scope.
Open Scope nat_scope.

Lemma last_index_none k l n : ~ In n l -> last_index k l n = None.
Proof. revert k. induction l as [|m l IH]; intros k H; cbn [last_index]; [reflexivity|]. rewrite IH by (intros Q; apply H; right; exact Q). destruct (Nat.eqb_spec m n) as [->|]; [|reflexivity]. exfalso. apply H. left. reflexivity. Qed.
Lemma last_index_in l n : NoDup l -> In n l -> forall k, last_index k l n = Some (k + nindex n l).
Proof.
  induction l as [|m l IH]; intros N H k; cbn [last_index index_of]; [destruct H|]. inversion N as [|? ? N1 N2]; subst. destruct (Nat.eq_dec n m) as [->|E].
  - rewrite last_index_none by exact N1. rewrite Nat.eqb_refl, Nat.add_0_r. reflexivity.
  - destruct H as [H|H]; [congruence|]. rewrite IH by assumption. f_equal. lia.
Qed.
Lemma lookup_seq b c n i : i < n -> lookup Nat.eqb (combine (seq c n) (seq b n)) (c + i) = Some (b + i).
Proof.
  revert b c i. induction n as [|n IH]; intros b c i H; [lia|]. unfold lookup. cbn [seq combine find fst]. destruct i as [|i].
  - rewrite Nat.add_0_r, Nat.eqb_refl. cbn [snd]. f_equal. lia.
  - destruct (Nat.eqb_spec c (c + S i)); [lia|]. specialize (IH (S b) (S c) i). unfold lookup in IH. replace (c + S i) with (S c + i) by lia. rewrite IH by lia. f_equal. lia.
Qed.
Lemma mapr_map A B (f : A -> res B) (g : A -> B) l : (forall x, In x l -> f x = Ok (g x)) -> mapr f l = Ok (map g l).
Proof. induction l as [|x l IH]; intros H; cbn [mapr map]; [reflexivity|]. rewrite (H x) by (left; reflexivity). cbn [rbind]. rewrite IH by (intros; apply H; right; assumption). reflexivity. Qed.

Section Json.
  Context {R : csr}.
  Notation heap := (@heap R).
  Variable ser : tensor R -> string.
  Variable deser : string -> option (tensor R).

  Lemma add_edge_he (h h' : heap) n e k ov : add_edge h n e k ov = Ok h' -> he h' = he h.
  Proof.
    unfold add_edge. destruct (node_at h n) as [nd| |]; cbn [rbind]; try discriminate. destruct (nth_error (o_edges nd) k) as [o|]; [|discriminate]. destruct (edge_at h o) as [ed| |]; cbn [rbind]; try discriminate.
    destruct (_ && _); cbn [guard]; [|discriminate]. intros E. inversion E; subst. reflexivity.
  Qed.
  Lemma put_end_he (h h' : heap) x e ov : put_end x e ov h = Ok h' -> he h' = he h.
  Proof. destruct x as [[n k]|]; cbn [put_end]; [apply add_edge_he | intros E; inversion E; reflexivity]. Qed.

  Definition jspec (j : jnode) (t : tensor R) : spec := (j_name j, j_axes j, j_backend j, PNode t).
  Lemma load_jnodes_news js : forall c (h h' : heap) ts, map (fun j => deser (j_tensor j)) js = map Some ts -> news h (map (fun x => jspec (fst x) (snd x)) (combine js ts)) = Ok h' ->
    load_jnodes deser h (combine (seq c (length js)) js) = Ok (h', combine (seq c (length js)) (seq (length (hn h)) (length js))).
  Proof.
    induction js as [|j js IH]; intros c h h' ts E H; cbn [length seq combine map load_jnodes] in *.
    - destruct ts; [|discriminate]. cbn in H. inversion H. reflexivity.
    - destruct ts as [|t ts]; [discriminate|]. cbn [map] in E. inversion E as [[E1 E2]]. rewrite E1. cbn [combine map news] in H. cbn [sp_name sp_axes sp_backend sp_pay jspec fst snd] in H.
      destruct (new_node h (j_name j) (j_axes j) (j_backend j) (PNode t)) as [[h1 n]| |] eqn:N; cbn [rbind fst snd] in H |- *; try discriminate.
      assert (n = length (hn h) /\ length (hn h1) = S (length (hn h))) as [-> L].
      { unfold new_node in N. destruct (_ && _); cbn [guard] in N; [|discriminate]. inversion N; subst. split; [reflexivity|]. cbn [hn]. rewrite app_length. cbn. lia. }
      rewrite (IH (S c) h1 h' ts E2 H). cbn [rbind fst snd]. rewrite L. reflexivity.
  Qed.
  Lemma load_jedges_place ids js : forall c (h h' : heap), place true h (map (fun j => (load_end ids (je_1 j), load_end ids (je_2 j), je_name j)) js) = Ok h' ->
    load_jedges h ids (combine (seq c (length js)) js) = Ok (h', combine (seq c (length js)) (seq (length (he h)) (length js))).
  Proof.
    induction js as [|j js IH]; intros c h h' H; cbn [length seq combine map load_jedges place] in *.
    - inversion H. reflexivity.
    - unfold place1 in H. cbn [fst snd new_edge] in H |- *. destruct (put_end (load_end ids (je_1 j)) _ _ _) as [h2| |] eqn:P1; cbn [rbind] in H |- *; try discriminate.
      destruct (put_end (load_end ids (je_2 j)) _ _ _) as [h3| |] eqn:P2; cbn [rbind] in H |- *; try discriminate.
      apply put_end_he in P1. apply put_end_he in P2. rewrite (IH (S c) h3 h' H). cbn [rbind fst snd]. rewrite P2, P1. cbn [he]. rewrite app_length, Nat.add_1_r. reflexivity.
  Qed.

  Lemma serial_binding_eq es b : NoDup es -> serial_binding es b = bound es (fun e => nindex e es) b.
  Proof.
    intros N. unfold serial_binding, bound. f_equal. apply map_ext. intros [k l]. cbn [fst snd]. f_equal. induction l as [|e l IH]; cbn [flat_map filter map]; [reflexivity|]. rewrite IH.
    destruct (mem e es) eqn:M; [apply mem_In in M; rewrite last_index_in by assumption; reflexivity | apply mem_nIn in M; rewrite last_index_none by exact M; reflexivity].
  Qed.
  Lemma load_binding_eq es f b : load_binding (combine (seq 0 (length es)) (seq f (length es))) (bound es (fun e => nindex e es) b) = Ok (bound es (fun e => f + nindex e es) b).
  Proof.
    unfold load_binding, bound.
    set (g := fun x : string * list nat => (fst x, map (fun i => f + i) (snd x))).
    rewrite (@mapr_map _ _ _ g).
    - f_equal. induction b as [|[k l] b IH]; cbn [map filter fst snd]; [reflexivity|]. rewrite !map_length. destruct (negb _); cbn [map]; rewrite IH; [|reflexivity]. f_equal. unfold g. cbn [fst snd]. rewrite map_map. reflexivity.
    - intros [k l] H. apply filter_In in H as [H _]. apply in_map_iff in H as ([k' l'] & E & _). inversion E; subst k l. cbn [fst snd]. unfold g. cbn [fst snd].
      rewrite (@mapr_map _ _ _ (fun i => f + i)); [reflexivity|]. intros i Hi. apply in_map_iff in Hi as (e & <- & He). apply filter_In in He as [_ He]. apply mem_In in He.
      pose proof (@lookup_seq f 0 (length es) (nindex e es) (@index_of_lt _ Nat.eq_dec _ _ He)) as Q. cbn [Nat.add] in Q. rewrite Q. reflexivity.
  Qed.

  Theorem json_round (h h0 : heap) ns es b : sound h ns -> NoDup ns -> all_edges h ns es -> (forall n nd, In n ns -> nth_error (hn h) n = Some nd -> exists t t', o_pay nd = PNode t /\ deser (ser t) = Some t' /\ teq t' t) ->
    exists d h' ns' f, nodes_to_json ser h ns es b = Ok d /\ nodes_from_json deser h0 d = Ok (h', ns', bound es f b) /\
      copied h ns h' ns' /\ extends h0 h' /\ (forall n, In n ns' -> length (hn h0) <= n) /\
      (forall i k e, i < length ns -> slot h (nth i ns 0) k = Some e -> slot h' (nth i ns' 0) k = Some (f e)).
  Proof.
    intros SO ND AE TE. unfold nodes_to_json.
    set (jn := fun n => match nth_error (hn h) n with Some nd => Jnode (o_name nd) (o_axes nd) (o_backend nd) (match o_pay nd with PNode t => ser t | PCopy _ _ _ => EmptyString end) | None => Jnode EmptyString [] EmptyString EmptyString end).
    rewrite (@mapr_map _ _ (node_dict ser h) jn).
    2:{ intros n Hn. destruct (so_node SO Hn) as (nd & E & _). unfold node_dict, node_at, jn. rewrite E. cbn [rbind]. destruct (TE n nd Hn E) as (t & t' & -> & _). reflexivity. }
    cbn [rbind].
    set (jd := fun e => match nth_error (he h) e with Some ed => Jedge (json_end ns (g_1 ed)) (json_end ns (g_2 ed)) (g_name ed) | None => Jedge None None EmptyString end).
    rewrite (@mapr_map _ _ (edge_dict h ns) jd).
    2:{ intros e He. apply AE in He as (n & k & Hn & Hs). destruct (so_edge SO Hn Hs) as (ed & E & _). unfold edge_dict, edge_at, jd. rewrite E. reflexivity. }
    cbn [rbind]. rewrite (serial_binding_eq b (proj1 AE)).
    set (pay := fun p : @payload R => match p with PNode t => PNode (match deser (ser t) with Some t' => t' | None => t end) | _ => p end).
    assert (PAY : forall n nd, In n ns -> nth_error (hn h) n = Some nd -> same_pay (pay (o_pay nd)) (o_pay nd)).
    { intros n nd Hn E. destruct (TE n nd Hn E) as (t & t' & -> & Es & Q). unfold pay. rewrite Es. exact Q. }
    destruct (copy_ok SO ND PAY AE true h0) as (h1 & h2 & E1 & E2 & E3 & CP & EX & _ & SL).
    eexists _, h2, (seq (length (hn h0)) (length ns)), (fun e => length (he h1) + nindex e es). split; [reflexivity|]. split; [|split; [exact CP|split; [exact EX|split]]].
    - unfold nodes_from_json. cbn [d_nodes d_edges d_binding].
      set (ts := map (fun n => match nth_error (hn h) n with Some nd => match pay (o_pay nd) with PNode t => t | PCopy _ _ _ => Tensor [] (fun _ => r0) end | None => Tensor [] (fun _ => r0) end) ns).
      unfold numbered. rewrite (@load_jnodes_news (map jn ns) 0 h0 h1 ts).
      + cbn [rbind fst snd]. rewrite (map_length jn). rewrite (@load_jedges_place _ (map jd es) 0 h1 h2).
        * cbn [rbind fst snd]. rewrite !map_length, load_binding_eq. cbn [rbind]. f_equal. f_equal. f_equal. clear. generalize (length (hn h0)) 0. induction (length ns) as [|m IH]; intros x y; cbn; [reflexivity | f_equal; apply IH].
        * rewrite <- E2. f_equal. rewrite map_map. apply map_ext_in. intros e He. apply AE in He as (n & k & Hn & Hs). destruct (so_edge SO Hn Hs) as (ed & E & _). unfold jd, triple_of. rewrite E. cbn [je_1 je_2 je_name].
          assert (forall x, load_end (combine (seq 0 (length ns)) (seq (length (hn h0)) (length ns))) (json_end ns x) = move ns (seq (length (hn h0)) (length ns)) x) as Q; [|rewrite !Q; reflexivity].
          intros [[m a]|]; cbn [json_end load_end]; [|reflexivity]. rewrite move_seq. destruct (in_dec Nat.eq_dec m ns) as [I|I]; [|rewrite last_index_none by exact I; reflexivity].
          rewrite last_index_in by assumption. cbn [load_end Nat.add]. pose proof (@lookup_seq (length (hn h0)) 0 (length ns) (nindex m ns) (@index_of_lt _ Nat.eq_dec _ _ I)) as Q. cbn [Nat.add] in Q. rewrite Q. reflexivity.
      + unfold ts. rewrite !map_map. apply map_ext_in. intros n Hn. destruct (so_node SO Hn) as (nd & E & _). unfold jn. rewrite E. cbn [j_tensor]. destruct (TE n nd Hn E) as (t & t' & -> & Es & _). unfold pay. rewrite Es. reflexivity.
      + rewrite <- E1. f_equal. unfold ts. clear E1 E2 E3 CP EX SL ts AE ND; fold pay. assert (forall n, In n ns -> exists nd t, nth_error (hn h) n = Some nd /\ pay (o_pay nd) = PNode t) as Q.
        { intros n Hn. destruct (so_node SO Hn) as (nd & E & _). destruct (TE n nd Hn E) as (t & t' & Et & _). exists nd. eexists. split; [exact E|]. rewrite Et. reflexivity. }
        clear SO TE PAY jd. induction ns as [|n l IH]; cbn [map combine]; [reflexivity|]. f_equal; [|apply IH; intros; apply Q; right; assumption].
        destruct (Q n (or_introl eq_refl)) as (nd & t & En & Et). cbn [fst snd]. unfold jspec, jn, spec_of. rewrite En, Et. reflexivity.
    - intros n Hn. apply in_seq in Hn. lia.
    - intros i k e Hi Hs. rewrite seq_nth by exact Hi. assert (In e es) as He by (apply AE; exists (nth i ns 0), k; split; [apply nth_In, Hi | exact Hs]). apply SL; [exact Hi | rewrite nth_nindex by exact He; exact Hs | apply index_of_lt, He].
  Qed.

  (** copy tensors cannot be written *)
  Theorem json_copy (h : heap) ns es b n nd r dim dt : sound h ns -> In n ns -> nth_error (hn h) n = Some nd -> o_pay nd = PCopy r dim dt -> nodes_to_json ser h ns es b = Raise.
  Proof.
    intros SO Hn En Ep. assert (forall l, (forall m, In m l -> In m ns) -> In n l -> mapr (node_dict ser h) l = Raise) as Q; [|unfold nodes_to_json; rewrite (Q ns (fun _ x => x) Hn); reflexivity].
    induction l as [|m l IH]; intros A I; [destruct I|]. cbn [mapr]. destruct (so_node SO (A m (or_introl eq_refl))) as (md & Em & _). unfold node_dict at 1, node_at. rewrite Em. cbn [rbind]. destruct (o_pay md) as [t|] eqn:Q; [|reflexivity]. cbn [rbind].
    destruct I as [->|I]; [congruence|]. rewrite (IH (fun x Hx => A x (or_intror Hx)) I). reflexivity.
  Qed.

  (** the copy of a sound network is sound *)
  Theorem copied_sound (h : heap) ns h' ns' : sound h ns -> NoDup ns -> first_ends h ns -> copied h ns h' ns' -> sound h' ns'.
  Proof.
    intros SO ND FE CP.
    assert (NT : forall m, In m ns' -> exists i, i < length ns /\ m = nth i ns' 0).
    { intros m Hm. apply (In_nth _ _ 0) in Hm as (i & Hi & E). exists i. rewrite (cp_length CP) in Hi. auto. }
    assert (SB : forall i k e', i < length ns -> slot h' (nth i ns' 0) k = Some e' -> exists e ed ed', slot h (nth i ns 0) k = Some e /\ nth_error (he h) e = Some ed /\ nth_error (he h') e' = Some ed' /\
              g_1 ed' = move ns ns' (g_1 ed) /\ g_2 ed' = move ns ns' (g_2 ed) /\ g_dangling ed' = is_none (g_2 ed')).
    { intros i k e' Hi Hs. destruct (cp_node CP Hi) as (nd & nd' & E & E' & _ & _ & _ & _ & L). assert (k < length (o_edges nd)) as Hk by (unfold slot in Hs; rewrite E' in Hs; apply nth_error_lt in Hs; lia).
      destruct (slot h (nth i ns 0) k) as [e|] eqn:S1; [|unfold slot in S1; rewrite E in S1; apply nth_error_None in S1; lia].
      destruct (so_edge SO (nth_In ns 0 Hi) S1) as (ed & Ed & _). destruct (cp_edge CP Hi S1 Ed) as (f & ed' & F1 & F2 & _ & F3 & F4 & F5). assert (f = e') by congruence. subst f. exists e, ed, ed'. auto 10. }
    assert (MV : forall x m l, move ns ns' x = Some (m, l) -> exists n, In n ns /\ x = Some (n, l) /\ m = nth (nindex n ns) ns' 0).
    { intros [[n a]|] m l; cbn [move]; [|discriminate]. destruct (in_dec Nat.eq_dec n ns) as [I|]; [|discriminate]. intros Q. inversion Q; subst. eauto. }
    assert (VM : forall i k, i < length ns -> move ns ns' (Some (nth i ns 0, k)) = Some (nth i ns' 0, k)).
    { intros i k Hi. cbn [move]. destruct (in_dec Nat.eq_dec (nth i ns 0) ns) as [I|I]; [|destruct (I (nth_In ns 0 Hi))]. rewrite nindex_nth by assumption. reflexivity. }
    assert (IJ : forall n m, In n ns -> In m ns -> nth (nindex n ns) ns' 0 = nth (nindex m ns) ns' 0 -> n = m).
    { intros n m Hn Hm E. apply (proj1 (NoDup_nth ns' 0) (cp_nodup CP)) in E; [apply (index_inj Hn Hm E) | |]; rewrite (cp_length CP); apply index_of_lt; assumption. }
    constructor.
    - intros m Hm. destruct (NT m Hm) as (i & Hi & ->). destruct (cp_node CP Hi) as (nd & nd' & E & E' & _ & A & _ & P & L). destruct (so_node SO (nth_In ns 0 Hi)) as (nd2 & E2 & D1 & D2 & D3).
      assert (nd2 = nd) by congruence. subst nd2. exists nd'. split; [exact E'|]. assert (pshape (o_pay nd') = pshape (o_pay nd)) as P' by (destruct (o_pay nd') as [t|], (o_pay nd) as [u|]; cbn in *; try contradiction; [apply P | congruence]). rewrite A, P', L. auto.
    - intros m k e' Hm Hs. destruct (NT m Hm) as (i & Hi & ->). destruct (SB i k e' Hi Hs) as (e & ed & ed' & S1 & Ed & Ed' & G1 & G2 & G3). exists ed'. split; [exact Ed'|].
      destruct (so_edge SO (nth_In ns 0 Hi) S1) as (ed2 & Ed2 & HE & _ & N1 & N2). assert (ed2 = ed) by congruence. subst ed2. split; [|split; [exact G3|split]].
      + destruct HE as [HE|HE]; [left; rewrite G1, HE | right; rewrite G2, HE]; apply VM, Hi.
      + rewrite G1. destruct (g_1 ed) as [[m l]|] eqn:Q; [|congruence]. cbn [move]. destruct (in_dec Nat.eq_dec m ns) as [I|I]; [discriminate|]. destruct (I (FE _ _ _ _ _ _ (nth_In ns 0 Hi) S1 Ed Q)).
      + rewrite G1, G2. destruct (g_1 ed) as [[m l]|] eqn:Q; [|congruence]. pose proof (FE _ _ _ _ _ _ (nth_In ns 0 Hi) S1 Ed Q) as I. cbn [move]. destruct (in_dec Nat.eq_dec m ns); [|contradiction].
        intros F. symmetry in F. apply MV in F as (n & I' & F & E). assert (m = n) by (apply IJ; assumption). subst n. congruence.
    - intros m k e' ed' m' l Hm Hs He' Hh Hm'. destruct (NT m Hm) as (i & Hi & ->). destruct (SB i k e' Hi Hs) as (e & ed & ed2 & S1 & Ed & Ed' & G1 & G2 & _). assert (ed2 = ed') by congruence. subst ed2.
      assert (exists n, In n ns /\ has_end ed n l /\ m' = nth (nindex n ns) ns' 0) as (n & In_ & HE & ->).
      { destruct Hh as [Hh|Hh]; rewrite Hh in *; [symmetry in G1; apply MV in G1 as (n & A & B & C); exists n; split; [exact A|split; [left; exact B|exact C]] | symmetry in G2; apply MV in G2 as (n & A & B & C); exists n; split; [exact A|split; [right; exact B|exact C]]]. }
      pose proof (so_back SO (nth_In ns 0 Hi) S1 Ed HE In_) as S2. rewrite <- (nth_nindex 0 In_) in S2. pose proof (@index_of_lt _ Nat.eq_dec _ _ In_) as Hj.
      destruct (cp_edge CP Hj S2 Ed) as (f & edf & F1 & _). rewrite F1. f_equal. apply (cp_same CP Hj Hi S2 S1 F1 Hs). reflexivity.
  Qed.
End Json.
