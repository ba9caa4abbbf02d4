(** * SerialFile: the round trip through a file *)
From Coq Require Import String Permutation DecimalString DecimalNat.
From Verif Require Import Prelude Res Algebra Tensor ListFacts Serial SerialSpec SerialCore SerialCopy SerialJson.
Set Implicit Arguments.
Unset Strict Implicit.
Open Scope list_scope.
Open Scope nat_scope.

Lemma digits_inj n m : digits n = digits m -> n = m.
Proof.
  unfold digits. intros E. assert (Nat.to_uint n = Nat.to_uint m) as Q.
  { pose proof (NilEmpty.usu (Nat.to_uint n)) as A. pose proof (NilEmpty.usu (Nat.to_uint m)) as B. rewrite E, B in A. congruence. }
  rewrite <- (Unsigned.of_to n), <- (Unsigned.of_to m), Q. reflexivity.
Qed.
Lemma node_name_inj n m : node_name n = node_name m -> n = m.
Proof. unfold node_name. cbn [String.append]. intros E. injection E as E. apply digits_inj, E. Qed.
Lemma edge_name_inj n m : edge_name n = edge_name m -> n = m.
Proof. unfold edge_name. cbn [String.append]. intros E. injection E as E. apply digits_inj, E. Qed.

Lemma lookup_uniq K V (eqb : K -> K -> bool) (d : list (K * V)) k v : (forall x y, eqb x y = true <-> x = y) -> NoDup (map fst d) -> In (k, v) d -> lookup eqb d k = Some v.
Proof.
  intros EQ. unfold lookup. induction d as [|[k' v'] d IH]; intros N H; cbn [map find fst] in *; [destruct H|]. inversion N as [|? ? N1 N2]; subst. destruct H as [H|H].
  - inversion H; subst. rewrite (proj2 (EQ k k) eq_refl). reflexivity.
  - destruct (eqb k' k) eqn:Q; [|apply IH; assumption]. apply EQ in Q. subst. exfalso. apply N1. apply in_map_iff. exists (k, v). auto.
Qed.
Lemma lookup_none K V (eqb : K -> K -> bool) (d : list (K * V)) k : (forall x y, eqb x y = true <-> x = y) -> ~ In k (map fst d) -> lookup eqb d k = None.
Proof.
  intros EQ N. unfold lookup. destruct (find _ d) as [x|] eqn:F; [|reflexivity]. apply find_some in F as [F1 F2]. apply EQ in F2. exfalso. apply N. apply in_map_iff. exists x. auto.
Qed.
Lemma in_combine_map A B (f : A -> B) l x : In x l -> In (x, f x) (combine l (map f l)).
Proof. induction l as [|y l IH]; intros H; [destruct H|]. cbn. destruct H as [->|H]; auto. Qed.
Lemma fst_combine A B (l : list A) (m : list B) : length l = length m -> map fst (combine l m) = l.
Proof. revert m. induction l as [|x l IH]; intros [|y m] E; cbn in *; try discriminate; [reflexivity|]. f_equal. apply IH. lia. Qed.
Lemma seq_index l : NoDup l -> map (fun n => nindex n l) l = seq 0 (length l).
Proof.
  intros N. apply (@nth_ext _ _ _ 0 0); rewrite ?map_length, ?seq_length; [reflexivity|]. intros i Hi. rewrite (nth_indep _ 0 (nindex 0 l)) by (rewrite map_length; exact Hi).
  rewrite (map_nth (fun n => nindex n l)). rewrite seq_nth by exact Hi. apply nindex_nth; assumption.
Qed.
Lemma NoDup_map_in A B (f : A -> B) l : (forall x y, In x l -> In y l -> f x = f y -> x = y) -> NoDup l -> NoDup (map f l).
Proof.
  induction l as [|x l IH]; intros H N; cbn; [constructor|]. inversion N; subst. constructor.
  - intros Q. apply in_map_iff in Q as (y & E & Hy). assert (x = y) by (apply H; [left; reflexivity | right; exact Hy | congruence]). subst. contradiction.
  - apply IH; [intros; apply H; try (right; assumption); assumption | assumption].
Qed.

Lemma nth_error_ext A (l l' : list A) : (forall k, nth_error l k = nth_error l' k) -> l = l'.
Proof. revert l'. induction l as [|x r IH]; intros [|y r'] H; auto; try (specialize (H 0); discriminate). f_equal; [specialize (H 0); cbn in H; congruence | apply IH; intros k; exact (H (S k))]. Qed.

Section File.
  Context {R : csr}.
  Notation heap := (@heap R).
  Notation onode := (@onode R).

  (** ** renaming *)
  Definition node_named (x : option string) (nd : onode) : onode := match x with Some v => Onode v (o_axes nd) (o_backend nd) (o_pay nd) (o_edges nd) | None => nd end.
  Definition edge_named (x : option string) (ed : oedge) : oedge := match x with Some v => Oedge (g_1 ed) (g_2 ed) (g_dangling ed) v | None => ed end.
  Lemma option_map_id A (x : option A) (f : A -> A) : (forall a, x = Some a -> f a = a) -> option_map f x = x.
  Proof. destruct x; intros H; cbn; [f_equal; apply H; reflexivity | reflexivity]. Qed.
  Lemma set_node_nth (h : heap) n v m : nth_error (hn (set_node_name h n v)) m = option_map (node_named (if m =? n then Some v else None)) (nth_error (hn h) m).
  Proof.
    unfold set_node_name. destruct (nth_error (hn h) n) as [nd|] eqn:E.
    - cbn [hn]. rewrite upd_nth. destruct (Nat.ltb_spec m (length (hn h))) as [L|L]; [|apply nth_error_None in L; rewrite L; reflexivity]. destruct (Nat.eqb_spec m n) as [->|]; [rewrite E; reflexivity|]. symmetry. apply option_map_id. reflexivity.
    - destruct (Nat.eqb_spec m n) as [->|]; [rewrite E; reflexivity|]. symmetry. apply option_map_id. reflexivity.
  Qed.
  Lemma set_edge_nth (h : heap) n v m : nth_error (he (set_edge_name h n v)) m = option_map (edge_named (if m =? n then Some v else None)) (nth_error (he h) m).
  Proof.
    unfold set_edge_name. destruct (nth_error (he h) n) as [nd|] eqn:E.
    - cbn [he]. rewrite upd_nth. destruct (Nat.ltb_spec m (length (he h))) as [L|L]; [|apply nth_error_None in L; rewrite L; reflexivity]. destruct (Nat.eqb_spec m n) as [->|]; [rewrite E; reflexivity|]. symmetry. apply option_map_id. reflexivity.
    - destruct (Nat.eqb_spec m n) as [->|]; [rewrite E; reflexivity|]. symmetry. apply option_map_id. reflexivity.
  Qed.
  Lemma set_node_he (h : heap) n v : he (set_node_name h n v) = he h.
  Proof. unfold set_node_name. destruct (nth_error (hn h) n); reflexivity. Qed.
  Lemma set_edge_hn (h : heap) n v : hn (set_edge_name h n v) = hn h.
  Proof. unfold set_edge_name. destruct (nth_error (he h) n); reflexivity. Qed.
  Lemma set_nodes_he l : forall h : heap, he (set_names set_node_name h l) = he h.
  Proof. unfold set_names. induction l as [|x l IH]; intros h; cbn [fold_left]; [reflexivity|]. rewrite IH. apply set_node_he. Qed.
  Lemma set_edges_hn l : forall h : heap, hn (set_names set_edge_name h l) = hn h.
  Proof. unfold set_names. induction l as [|x l IH]; intros h; cbn [fold_left]; [reflexivity|]. rewrite IH. apply set_edge_hn. Qed.
  Lemma set_nodes_nth l : forall (h : heap) m, NoDup (map fst l) -> nth_error (hn (set_names set_node_name h l)) m = option_map (node_named (lookup Nat.eqb l m)) (nth_error (hn h) m).
  Proof.
    unfold set_names. induction l as [|[n v] l IH]; intros h m N; cbn [fold_left fst snd].
    - symmetry. apply option_map_id. reflexivity.
    - cbn in N. inversion N as [|? ? N1 N2]; subst. rewrite IH by exact N2. rewrite set_node_nth. unfold lookup at 2. cbn [find fst]. rewrite (Nat.eqb_sym n m). destruct (Nat.eqb_spec m n) as [->|E].
      + rewrite (lookup_none Nat.eqb_eq N1). cbn [snd]. destruct (nth_error (hn h) n); reflexivity.
      + fold (lookup Nat.eqb l m). destruct (nth_error (hn h) m); reflexivity.
  Qed.
  Lemma set_edges_nth l : forall (h : heap) m, NoDup (map fst l) -> nth_error (he (set_names set_edge_name h l)) m = option_map (edge_named (lookup Nat.eqb l m)) (nth_error (he h) m).
  Proof.
    unfold set_names. induction l as [|[n v] l IH]; intros h m N; cbn [fold_left fst snd].
    - symmetry. apply option_map_id. reflexivity.
    - cbn in N. inversion N as [|? ? N1 N2]; subst. rewrite IH by exact N2. rewrite set_edge_nth. unfold lookup at 2. cbn [find fst]. rewrite (Nat.eqb_sym n m). destruct (Nat.eqb_spec m n) as [->|E].
      + rewrite (lookup_none Nat.eqb_eq N1). cbn [snd]. destruct (nth_error (he h) n); reflexivity.
      + fold (lookup Nat.eqb l m). destruct (nth_error (he h) m); reflexivity.
  Qed.
  (** heaps that differ in names only *)
  Definition same_but_names (h h' : heap) : Prop := exists fn fe,
    (forall n, nth_error (hn h') n = option_map (node_named (fn n)) (nth_error (hn h) n)) /\ (forall e, nth_error (he h') e = option_map (edge_named (fe e)) (nth_error (he h) e)).
  Lemma node_named_eq x nd : o_axes (node_named x nd) = o_axes nd /\ o_backend (node_named x nd) = o_backend nd /\ o_pay (node_named x nd) = o_pay nd /\ o_edges (node_named x nd) = o_edges nd.
  Proof. destruct x; repeat split; reflexivity. Qed.
  Lemma edge_named_eq x ed : g_1 (edge_named x ed) = g_1 ed /\ g_2 (edge_named x ed) = g_2 ed /\ g_dangling (edge_named x ed) = g_dangling ed.
  Proof. destruct x; repeat split; reflexivity. Qed.
  Lemma slot_names h h' n k : same_but_names h h' -> slot h' n k = slot h n k.
  Proof. intros (fn & fe & H & _). unfold slot. rewrite H. destruct (nth_error (hn h) n) as [nd|]; cbn [option_map]; [|reflexivity]. f_equal. apply node_named_eq. Qed.
  Lemma sound_names h h' ns : same_but_names h h' -> sound h ns -> sound h' ns.
  Proof.
    intros N SO. pose proof N as (fn & fe & H1 & H2). constructor.
    - intros n Hn. destruct (so_node SO Hn) as (nd & E & A). rewrite H1, E. cbn. eexists. split; [reflexivity|]. destruct (node_named_eq (fn n) nd) as (-> & _ & -> & ->). exact A.
    - intros n k e Hn Hs. rewrite (slot_names _ _ N) in Hs. destruct (so_edge SO Hn Hs) as (ed & E & A & B & C & D). rewrite H2, E. cbn. eexists. split; [reflexivity|]. unfold has_end. destruct (edge_named_eq (fe e) ed) as (-> & -> & ->). auto.
    - intros n k e ed m l Hn Hs He Hh Hm. rewrite (slot_names _ _ N) in Hs. rewrite (slot_names _ _ N). rewrite H2 in He. destruct (nth_error (he h) e) as [ed0|] eqn:E; cbn in He; [|discriminate]. inversion He; subst ed. unfold has_end in Hh.
      destruct (edge_named_eq (fe e) ed0) as (Q1 & Q2 & _). rewrite Q1, Q2 in Hh. exact (so_back SO Hn Hs E Hh Hm).
  Qed.
  Lemma all_edges_names h h' ns es : same_but_names h h' -> all_edges h ns es -> all_edges h' ns es.
  Proof. intros N [A B]. split; [exact A|]. intros e. rewrite B. split; intros (n & k & Hn & Hs); exists n, k; split; auto; [rewrite (slot_names _ _ N); exact Hs | rewrite <- (slot_names _ _ N); exact Hs]. Qed.
  Lemma sound_perm (h : heap) ns ns' : Permutation ns ns' -> sound h ns -> sound h ns'.
  Proof.
    intros P [A B C]. assert (forall n, In n ns' -> In n ns) as Q by (intros n; apply Permutation_in; symmetry; exact P). constructor; eauto.
  Qed.
  Lemma all_edges_perm (h : heap) ns ns' es es' : Permutation ns ns' -> Permutation es es' -> all_edges h ns es -> all_edges h ns' es'.
  Proof.
    intros P Q [A B]. split; [eapply Permutation_NoDup; eassumption|]. intros e. split.
    - intros He. apply (Permutation_in _ (Permutation_sym Q)) in He. apply B in He as (n & k & Hn & Hs). exists n, k. split; [apply (Permutation_in _ P), Hn | exact Hs].
    - intros (n & k & Hn & Hs). apply (Permutation_in _ Q). apply B. exists n, k. split; [apply (Permutation_in _ (Permutation_sym P)), Hn | exact Hs].
  Qed.

  (** ** saving *)
  Lemma inside_names h h' ns : same_but_names h h' -> inside h ns -> inside h' ns.
  Proof.
    intros N H. pose proof N as (fn & fe & H1 & H2). intros n k e ed m l Hn Hs He Hh. rewrite (slot_names _ _ N) in Hs. rewrite H2 in He. destruct (nth_error (he h) e) as [ed0|] eqn:E; cbn in He; [|discriminate]. inversion He; subst ed.
    unfold has_end in Hh. destruct (edge_named_eq (fe e) ed0) as (Q1 & Q2 & _). rewrite Q1, Q2 in Hh. exact (H n k e ed0 m l Hn Hs E Hh).
  Qed.
  Lemma closed_ok (h : heap) ns : sound h ns -> inside h ns -> closed h ns = true.
  Proof.
    intros SO IN. apply forallb_forall. intros n Hn. destruct (so_node SO Hn) as (nd & E & _). rewrite E. apply forallb_forall. intros e He. apply (In_nth_error) in He as [k Hk].
    assert (slot h n k = Some e) as Hs by (unfold slot; rewrite E; exact Hk). destruct (so_edge SO Hn Hs) as (ed & Ed & _). rewrite Ed. apply forallb_forall. intros x Hx.
    destruct x as [[m l]|]; [|reflexivity]. apply mem_In. apply (IN n k e ed m l Hn Hs Ed). destruct Hx as [Hx|[Hx|[]]]; [left|right]; exact Hx.
  Qed.
  Lemma nodupn_ok l : NoDup l -> nodupn l = true.
  Proof. induction l as [|x l IH]; intros N; cbn; [reflexivity|]. inversion N; subst. rewrite IH by assumption. rewrite Bool.andb_true_r. apply Bool.negb_true_iff. apply mem_nIn. assumption. Qed.

  Definition end_name (h : heap) (x : nat * nat) : string * nat := (name_of h (fst x), snd x).
  Definition fedge_of (h : heap) (e : nat) : fedge :=
    match nth_error (he h) e with
    | Some ed => Fedge (match g_1 ed with Some x => end_name h x | None => (EmptyString, 0) end) (option_map (end_name h) (g_2 ed)) (g_name ed)
    | None => Fedge (EmptyString, 0) None EmptyString
    end.
  Definition fnode_of (h : heap) (n : nat) : @fnode R :=
    match nth_error (hn h) n with
    | Some nd => Fnode (o_name nd) (o_backend nd) (pshape (o_pay nd)) (match o_axes nd with [] => None | l => Some l end) (map (edge_name_of h) (o_edges nd)) (match o_pay nd with PNode t => inl t | PCopy _ _ d => inr d end)
    | None => Fnode EmptyString EmptyString [] None [] (inr EmptyString)
    end.
  Section Save.
    Variable h : heap.
    Variable ns : list nat.
    Hypothesis SO : sound h ns.
    Hypothesis IN : inside h ns.
    Lemma save_node_ok n : In n ns -> save_node h n = Ok (fnode_of h n).
    Proof.
      intros Hn. destruct (so_node SO Hn) as (nd & E & _). unfold save_node, node_at, fnode_of. rewrite E. cbn [rbind]. rewrite (@mapr_map _ _ _ (edge_name_of h)); [reflexivity|].
      intros e He. apply In_nth_error in He as [k Hk]. assert (slot h n k = Some e) as Hs by (unfold slot; rewrite E; exact Hk). destruct (so_edge SO Hn Hs) as (ed & Ed & _). unfold edge_at, edge_name_of. rewrite Ed. reflexivity.
    Qed.
    Lemma named_end_ok n k e ed m l : In n ns -> slot h n k = Some e -> nth_error (he h) e = Some ed -> has_end ed m l -> named_end h (Some (m, l)) = Ok (end_name h (m, l)).
    Proof. intros Hn Hs He Hh. pose proof (IN Hn Hs He Hh) as Hm. destruct (so_node SO Hm) as (nd & E & _). unfold named_end, node_at, end_name, name_of. cbn [fst snd]. rewrite E. reflexivity. Qed.
    Lemma save_edge_ok n k e : In n ns -> slot h n k = Some e -> save_edge h e = Ok (fedge_of h e).
    Proof.
      intros Hn Hs. destruct (so_edge SO Hn Hs) as (ed & Ed & _ & D & N & _). unfold save_edge, edge_at, fedge_of. rewrite Ed. cbn [rbind]. destruct (g_1 ed) as [[m l]|] eqn:G1; [|congruence].
      rewrite (named_end_ok Hn Hs Ed (or_introl G1)). cbn [rbind]. rewrite D. destruct (g_2 ed) as [[m2 l2]|] eqn:G2; cbn [is_none]; [|reflexivity]. rewrite (named_end_ok Hn Hs Ed (or_intror G2)). reflexivity.
    Qed.
    Definition starts (e n : nat) : Prop := exists ed k, nth_error (he h) e = Some ed /\ g_1 ed = Some (n, k).
    Definition entry (e : nat) : string * fedge := (edge_name_of h e, fedge_of h e).
    Lemma save_edges_ok n l : In n ns -> forall left, (forall e, In e l -> exists k, slot h n k = Some e) ->
      exists out left', save_edges h n l left = Ok (map entry out, left') /\ NoDup out /\
        (forall e, In e out <-> In e l /\ starts e n /\ In e left) /\ (forall e, In e left' <-> In e left /\ ~ In e out).
    Proof.
      intros Hn. induction l as [|e l IH]; intros left H; cbn [save_edges].
      - exists [], left. split; [reflexivity|]. split; [constructor|]. split; intros e; cbn; tauto.
      - destruct (H e (or_introl eq_refl)) as [k Hs]. destruct (so_edge SO Hn Hs) as (ed & Ed & _ & _ & N & _). unfold edge_at. rewrite Ed. cbn [rbind]. destruct (g_1 ed) as [[m a]|] eqn:G1; [|congruence].
        destruct (Nat.eqb_spec m n) as [->|Nm]; [destruct (mem e left) eqn:M|]; cbn [andb].
        + rewrite (save_edge_ok Hn Hs). cbn [rbind]. destruct (IH (remove Nat.eq_dec e left)) as (out & left' & E & N1 & N2 & N3); [intros; apply H; right; assumption|]. rewrite E. cbn [rbind fst snd].
          apply mem_In in M. exists (e :: out), left'. split; [cbn [map]; replace (entry e) with (g_name ed, fedge_of h e) by (unfold entry, edge_name_of; rewrite Ed; reflexivity); reflexivity|].
          assert (RM : forall x, In x (remove Nat.eq_dec e left) <-> In x left /\ x <> e).
          { intros x. split; [apply in_remove | intros [A B]; apply in_in_remove; assumption]. }
          split; [constructor; [rewrite N2, RM; tauto | exact N1]|]. split.
          * intros x. cbn [In]. rewrite N2, RM. split; [intros [<-|(A & B & C & D)]; [repeat split; auto; exists ed, a; auto | tauto]|]. intros ([<-|A] & B & C); [left; reflexivity|]. destruct (Nat.eq_dec e x) as [->|Q]; [left; reflexivity | right; repeat split; auto].
          * intros x. rewrite N3, RM. cbn [In]. split; [intros ((A & B) & C); split; [exact A | intros [Q|Q]; [congruence | contradiction]] | intros (A & B); repeat split; auto].
        + destruct (IH left) as (out & left' & E & N1 & N2 & N3); [intros; apply H; right; assumption|]. exists out, left'. split; [exact E|]. split; [exact N1|]. split; [|exact N3]. intros x. rewrite N2. cbn [In].
          apply mem_nIn in M. split; [tauto|]. intros ([<-|A] & B & C); [contradiction | tauto].
        + destruct (IH left) as (out & left' & E & N1 & N2 & N3); [intros; apply H; right; assumption|]. exists out, left'. split; [exact E|]. split; [exact N1|]. split; [|exact N3]. intros x. rewrite N2. cbn [In].
          split; [tauto|]. intros ([<-|A] & B & C); [|tauto]. destruct B as (ed' & a' & B1 & B2). congruence.
    Qed.
    Lemma save_all_ok l : (forall n, In n l -> In n ns) -> forall left, exists out left', save_all h l left = Ok (map (fun n => (name_of h n, fnode_of h n)) l, map entry out, left') /\ NoDup out /\
      (forall e, In e out <-> In e left /\ exists n k, In n l /\ slot h n k = Some e /\ starts e n) /\ (forall e, In e left' <-> In e left /\ ~ In e out).
    Proof.
      induction l as [|n l IH]; intros H left; cbn [save_all].
      - exists [], left. split; [reflexivity|]. split; [constructor|]. split; [intros e; split; [intros [] | intros (_ & n & _ & [] & _)] | intros e; cbn; tauto].
      - pose proof (H n (or_introl eq_refl)) as Hn. destruct (so_node SO Hn) as (nd & E & _). unfold node_at. rewrite E. cbn [rbind]. rewrite (save_node_ok Hn). cbn [rbind].
        destruct (@save_edges_ok n (o_edges nd) Hn left) as (out1 & left1 & E1 & A1 & A2 & A3).
        { intros e He. apply In_nth_error in He as [k Hk]. exists k. unfold slot. rewrite E. exact Hk. }
        rewrite E1. cbn [rbind fst snd]. destruct (IH (fun m Hm => H m (or_intror Hm)) left1) as (out2 & left2 & E2 & B1 & B2 & B3). rewrite E2. cbn [rbind fst snd].
        exists (out1 ++ out2), left2. split; [cbn [map]; rewrite map_app; replace (name_of h n) with (o_name nd) by (unfold name_of; rewrite E; reflexivity); reflexivity|]. split; [|split].
        + apply NoDup_app_iff. split; [exact A1|]. split; [exact B1|]. intros e Q1 Q2. apply B2 in Q2 as [Q2 _]. apply A3 in Q2 as [_ Q2]. contradiction.
        + intros e. rewrite in_app_iff, B2, A3, A2. split.
          * intros [(P1 & P2 & P3)|((P1 & _) & m & k & P2 & P3)].
            -- split; [exact P3|]. apply In_nth_error in P1 as [k Hk]. exists n, k. split; [left; reflexivity|]. split; [unfold slot; rewrite E; exact Hk | exact P2].
            -- split; [exact P1|]. exists m, k. split; [right; exact P2 | exact P3].
          * intros (P1 & m & k & [<-|P2] & P3 & P4).
            -- left. split; [|auto]. unfold slot in P3. rewrite E in P3. apply nth_error_In in P3. exact P3.
            -- destruct (in_dec Nat.eq_dec e (o_edges nd)) as [Q|Q].
               ++ destruct P4 as (ed & a & P4 & P5). destruct (Nat.eq_dec m n) as [->|Nm].
                  ** left. repeat split; auto. exists ed, a. auto.
                  ** right. split; [split; [exact P1|]|].
                     { intros (_ & (ed' & a' & F1 & F2) & _). congruence. }
                     exists m, k. repeat split; auto. exists ed, a. auto.
               ++ right. split; [split; [exact P1|tauto]|]. exists m, k. auto.
        + intros e. rewrite B3, A3, in_app_iff. tauto.
    Qed.
    Variable es : list nat.
    Hypothesis AE : all_edges h ns es.
    Lemma save_all_full : exists out, save_all h ns es = Ok (map (fun n => (name_of h n, fnode_of h n)) ns, map entry out, []) /\ Permutation es out.
    Proof.
      destruct (@save_all_ok ns (fun n H => H) es) as (out & left' & E & A & B & C).
      assert (forall e, In e out <-> In e es) as Q.
      { intros e. rewrite B. split; [tauto|]. intros He. split; [exact He|]. apply AE in He as (n & k & Hn & Hs). destruct (so_edge SO Hn Hs) as (ed & Ed & _ & _ & N & _). destruct (g_1 ed) as [[m l]|] eqn:G1; [|congruence].
        pose proof (IN Hn Hs Ed (or_introl G1)) as Hm. exists m, l. split; [exact Hm|]. split; [exact (so_back SO Hn Hs Ed (or_introl G1) Hm)|]. exists ed, l. auto. }
      exists out. split; [|apply NoDup_Permutation; [apply AE | exact A | intros; symmetry; apply Q]]. rewrite E. repeat f_equal. destruct left' as [|x r]; [reflexivity|]. destruct (proj1 (C x) (or_introl eq_refl)) as [Q1 Q2]. rewrite Q in Q2. contradiction.
    Qed.
  End Save.

  (** names during saving *)
  Section Names.
    Variable h : heap.
    Variables ns es : list nat.
    Hypothesis ND : NoDup ns.
    Hypothesis NE : NoDup es.
    Definition h_named : heap := set_names set_edge_name (set_names set_node_name h (combine ns (map node_name (seq 0 (length ns))))) (combine es (map edge_name (seq 0 (length es)))).
    Lemma lookup_new A (name : nat -> A) l m : NoDup l -> lookup Nat.eqb (combine l (map name (seq 0 (length l)))) m = if mem m l then Some (name (nindex m l)) else None.
    Proof.
      intros N. destruct (mem m l) eqn:M.
      - apply mem_In in M. apply (lookup_uniq Nat.eqb_eq); [rewrite fst_combine; [exact N | rewrite map_length, seq_length; reflexivity]|]. rewrite <- (seq_index N), map_map. exact (@in_combine_map _ _ (fun n => name (nindex n l)) l m M).
      - apply mem_nIn in M. apply (lookup_none Nat.eqb_eq). rewrite fst_combine; [exact M | rewrite map_length, seq_length; reflexivity].
    Qed.
    Lemma h_named_node n : nth_error (hn h_named) n = option_map (node_named (if mem n ns then Some (node_name (nindex n ns)) else None)) (nth_error (hn h) n).
    Proof. unfold h_named. rewrite set_edges_hn, set_nodes_nth by (rewrite fst_combine; [exact ND | rewrite map_length, seq_length; reflexivity]). rewrite lookup_new by exact ND. reflexivity. Qed.
    Lemma h_named_edge e : nth_error (he h_named) e = option_map (edge_named (if mem e es then Some (edge_name (nindex e es)) else None)) (nth_error (he h) e).
    Proof. unfold h_named. rewrite set_edges_nth by (rewrite fst_combine; [exact NE | rewrite map_length, seq_length; reflexivity]). rewrite lookup_new by exact NE. rewrite set_nodes_he. reflexivity. Qed.
    Lemma h_named_same : same_but_names h h_named.
    Proof. eexists _, _. split; [exact h_named_node | exact h_named_edge]. Qed.
  End Names.

  Section Round.
    Variable h : heap.
    Variables ns es : list nat.
    Hypothesis SO : sound h ns.
    Hypothesis ND : NoDup ns.
    Hypothesis AE : all_edges h ns es.
    Hypothesis IN : inside h ns.
    Let NE : NoDup es := proj1 AE.
    Let H := h_named h ns es.
    Let SB : same_but_names h H := h_named_same h ND NE.

    Theorem save_ok : exists out, save_nodes h ns es =
      Ok (File (map (fun n => (node_name (nindex n ns), fnode_of H n)) ns) (map (fun e => (edge_name (nindex e es), fedge_of H e)) out) (map (name_of h) ns) (map (edge_name_of h) es),
          set_names set_node_name H (combine ns (map (name_of h) ns))) /\ Permutation es out.
    Proof.
      destruct (@save_all_full H ns (sound_names SB SO) (inside_names SB IN) es (all_edges_names SB AE)) as (out & E & P). exists out. split; [|exact P].
      unfold save_nodes. rewrite (closed_ok SO IN), (nodupn_ok ND). cbn [andb guard]. change (set_names set_edge_name (set_names set_node_name h (combine ns (map node_name (seq 0 (length ns))))) (combine es (map edge_name (seq 0 (length es))))) with H.
      rewrite E. cbn [rbind fst snd]. f_equal. f_equal. f_equal.
      - apply map_ext_in. intros n Hn. f_equal. unfold name_of, H. rewrite h_named_node by assumption. destruct (so_node SO Hn) as (nd & En & _). rewrite En. rewrite (proj2 (mem_In _ _) Hn). reflexivity.
      - apply map_ext_in. intros e He. apply (Permutation_in _ (Permutation_sym P)) in He. unfold entry. f_equal. unfold edge_name_of, H. rewrite h_named_edge by assumption. rewrite (proj2 (mem_In _ _) He).
        apply AE in He as (n & k & Hn & Hs). destruct (so_edge SO Hn Hs) as (ed & Ed & _). rewrite Ed. reflexivity.
    Qed.
    (** the objects themselves: nodes as before, edges with the names used in the file *)
    Theorem save_effect f h' : save_nodes h ns es = Ok (f, h') ->
      hn h' = hn h /\ forall e, nth_error (he h') e = option_map (fun ed => if mem e es then Oedge (g_1 ed) (g_2 ed) (g_dangling ed) (edge_name (nindex e es)) else ed) (nth_error (he h) e).
    Proof.
      destruct save_ok as (out & E & _). rewrite E. intros Q. inversion Q; subst f h'. clear Q E. split.
      - apply nth_error_ext. intros n. rewrite set_nodes_nth by (rewrite fst_combine; [exact ND | rewrite map_length; reflexivity]). unfold H. rewrite h_named_node by assumption.
        destruct (nth_error (hn h) n) as [nd|] eqn:En; [|reflexivity]. cbn [option_map]. f_equal. destruct (mem n ns) eqn:M.
        + apply mem_In in M. rewrite (@lookup_uniq _ _ Nat.eqb (combine ns (map (name_of h) ns)) n (name_of h n) Nat.eqb_eq); [|rewrite fst_combine; [exact ND | rewrite map_length; reflexivity] | apply in_combine_map, M]. unfold name_of. rewrite En. destruct nd; reflexivity.
        + apply mem_nIn in M. rewrite (lookup_none Nat.eqb_eq); [reflexivity|]. rewrite fst_combine; [exact M | rewrite map_length; reflexivity].
      - intros e. rewrite set_nodes_he. unfold H. rewrite h_named_edge by assumption. destruct (nth_error (he h) e) as [ed|]; [|reflexivity]. cbn [option_map]. f_equal. destruct (mem e es); reflexivity.
    Qed.
  End Round.
End File.
