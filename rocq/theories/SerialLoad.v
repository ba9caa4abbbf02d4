(** * SerialLoad: loading a saved network *)
From Coq Require Import String Permutation.
From Verif Require Import Prelude Res Algebra Tensor TensorFacts ListFacts Serial SerialSpec SerialCore SerialCopy SerialJson SerialFile.
Set Implicit Arguments.
Unset Strict Implicit.
Open Scope list_scope.
Open Scope nat_scope.

Lemma in_combine_map2 A B C (g : A -> B) (f : A -> C) l x : In x l -> In (g x, f x) (combine (map g l) (map f l)).
Proof. induction l as [|y l IH]; intros H; [destruct H|]. cbn. destruct H as [->|H]; auto. Qed.

Section Load.
  Context {R : csr}.
  Lemma same_pay_refl (p : @payload R) : same_pay p p.
  Proof. destruct p; cbn; [apply teq_refl | reflexivity]. Qed.
  Notation heap := (@heap R).

  Lemma load_fnodes_news (H : heap) (d : list (string * fnode)) (key : nat -> string) l :
    (forall n, In n l -> lookup String.eqb d (key n) = Some (fnode_of H n)) ->
    (forall n, In n l -> exists nd, nth_error (hn H) n = Some nd /\ o_axes nd <> [] /\ length (o_axes nd) = length (pshape (o_pay nd))) ->
    forall h h' : heap, news h (map (spec_of id H) l) = Ok h' -> load_fnodes h d (map key l) = Ok (h', seq (length (hn h)) (length l)).
  Proof.
    induction l as [|n l IH]; intros A B h h' E; cbn [map load_fnodes news length seq] in *; [inversion E; reflexivity|].
    rewrite (A n (or_introl eq_refl)). destruct (B n (or_introl eq_refl)) as (nd & En & Ex & El).
    assert (load_node h (fnode_of H n) = new_node h (sp_name (spec_of id H n)) (sp_axes (spec_of id H n)) (sp_backend (spec_of id H n)) (sp_pay (spec_of id H n))) as ->.
    { unfold load_node, fnode_of, spec_of, id. rewrite En. cbn [f_axes f_pay f_name f_backend f_shape sp_name sp_axes sp_backend sp_pay fst snd]. destruct (o_axes nd) as [|a ax]; [congruence|]. destruct (o_pay nd) as [t|[|r] dim dt]; [reflexivity| cbn in El; discriminate|].
      cbn [pshape repeat length]. rewrite repeat_length. reflexivity. }
    destruct (new_node h _ _ _ _) as [[h1 m]| |] eqn:N; cbn [rbind fst snd] in E |- *; try discriminate.
    assert (m = length (hn h) /\ length (hn h1) = S (length (hn h))) as [-> L].
    { unfold new_node in N. destruct (_ && _); cbn [guard] in N; [|discriminate]. inversion N; subst. split; [reflexivity|]. cbn [hn]. rewrite app_length. cbn. lia. }
    rewrite (IH (fun x Hx => A x (or_intror Hx)) (fun x Hx => B x (or_intror Hx)) h1 h' E). cbn [rbind fst snd]. rewrite L. reflexivity.
  Qed.
  Lemma load_fedges_place ids d (key : nat -> string) (tr : nat -> triple) l :
    (forall e, In e l -> exists f a b, lookup String.eqb d (key e) = Some f /\ find_end ids (fe_1 f) = Ok a /\
      match fe_2 f with Some x => rbind (find_end ids x) (fun b => Ok (Some b)) | None => Ok None end = Ok b /\ tr e = (Some a, b, fe_name f)) ->
    forall h h' : heap, place false h (map tr l) = Ok h' -> load_fedges h ids d (map key l) = Ok (h', seq (length (he h)) (length l)).
  Proof.
    induction l as [|e l IH]; intros A h h' E; cbn [map load_fedges place length seq] in *; [inversion E; reflexivity|].
    destruct (A e (or_introl eq_refl)) as (f & a & b & E1 & E2 & E3 & E4). rewrite E1. unfold load_edge. rewrite E2. cbn [rbind]. rewrite E3. cbn [rbind]. rewrite E4 in E. unfold place1 in E. cbn [fst snd new_edge] in E |- *.
    destruct (put_end (Some a) _ _ _) as [h2| |] eqn:P1; cbn [rbind] in E |- *; try discriminate. destruct (put_end b _ _ _) as [h3| |] eqn:P2; cbn [rbind fst snd] in E |- *; try discriminate.
    apply put_end_he in P1. apply put_end_he in P2. rewrite (IH (fun x Hx => A x (or_intror Hx)) h3 h' E). cbn [rbind fst snd]. rewrite P2, P1. cbn [he]. rewrite app_length, Nat.add_1_r. reflexivity.
  Qed.
  Lemma rename_ok (look : heap -> nat -> option string) put d (k v : nat -> string) l : NoDup l -> (forall h n x m, m <> n -> look (put h n x) m = look h m) ->
    forall h, (forall n, In n l -> look h n = Some (k n) /\ lookup String.eqb d (k n) = Some (v n)) -> rename look put d h l = Ok (set_names put h (combine l (map v l))).
  Proof.
    intros N LP. induction l as [|n l IH]; intros h A; cbn [rename map combine]; [reflexivity|]. destruct (A n (or_introl eq_refl)) as [-> ->]. inversion N as [|? ? N1 N2]; subst.
    rewrite IH; [reflexivity | exact N2|]. intros m Hm. rewrite LP by (intros ->; contradiction). apply A. right. exact Hm.
  Qed.

  Variable keys : list string -> list string.
  Hypothesis KEYS : forall l, Permutation l (keys l).
  Variable h : heap.
  Variables ns es : list nat.
  Hypothesis SO : sound h ns.
  Hypothesis ND : NoDup ns.
  Hypothesis AE : all_edges h ns es.
  Hypothesis IN : inside h ns.
  Hypothesis RK : forall n nd, In n ns -> nth_error (hn h) n = Some nd -> pshape (o_pay nd) <> [].

  Theorem file_round (h0 : heap) : exists f h1, save_nodes h ns es = Ok (f, h1) /\ exists h' ns' order,
    load_nodes keys h0 f = Ok (h', ns') /\ Permutation ns order /\ keys (map node_name (seq 0 (length ns))) = map (fun n => node_name (nindex n ns)) order /\
    copied h order h' ns' /\ extends h0 h' /\ forall n, In n ns' -> length (hn h0) <= n.
  Proof.
    pose proof (proj1 AE) as NE. set (H := h_named h ns es). pose proof (h_named_same h ND NE : same_but_names h H) as SB.
    destruct (save_ok SO ND AE IN) as (out & ES & PO). eexists _, _. split; [exact ES|]. fold H. fold H in ES.
    set (nkey := fun n => node_name (nindex n ns)). set (ekey := fun e => edge_name (nindex e es)).
    assert (map fst (map (fun n => (nkey n, fnode_of H n)) ns) = map nkey ns) as MN by (rewrite map_map; reflexivity).
    assert (map fst (map (fun e => (ekey e, fedge_of H e)) out) = map ekey out) as ME by (rewrite map_map; reflexivity).
    assert (map nkey ns = map node_name (seq 0 (length ns))) as MK by (unfold nkey; rewrite <- (seq_index ND), map_map; reflexivity).
    pose proof (KEYS (map nkey ns)) as KN. symmetry in KN. apply Permutation_map_inv in KN as (ord & KN & PN).
    pose proof (KEYS (map ekey out)) as KE. symmetry in KE. apply Permutation_map_inv in KE as (eo & KE & PE).
    assert (PE' : Permutation es eo) by (etransitivity; eassumption).
    assert (ND' : NoDup ord) by (eapply Permutation_NoDup; eassumption).
    assert (IO : forall n, In n ord <-> In n ns) by (intros n; split; apply Permutation_in; [symmetry|]; exact PN).
    assert (IE : forall e, In e eo <-> In e es) by (intros n; split; apply Permutation_in; [symmetry|]; exact PE').
    assert (LN : length ord = length ns) by (symmetry; apply Permutation_length, PN).
    assert (SO' : sound H ord) by (apply (sound_perm PN), (sound_names SB), SO).
    assert (AE' : all_edges H ord eo) by (apply (all_edges_perm PN PE'), (all_edges_names SB), AE).
    assert (PAY : forall n nd, In n ord -> nth_error (hn H) n = Some nd -> same_pay (id (o_pay nd)) (o_pay nd)) by (intros n nd _ _; apply same_pay_refl).
    destruct (copy_ok SO' ND' PAY AE' false h0) as (h1 & h2 & E1 & E2 & E3 & CP & EX & NM & _). set (b := length (hn h0)) in *.
    assert (HN : forall n nd, In n ns -> nth_error (hn h) n = Some nd -> nth_error (hn H) n = Some (Onode (nkey n) (o_axes nd) (o_backend nd) (o_pay nd) (o_edges nd))).
    { intros n nd Hn En. unfold H. rewrite h_named_node by assumption. rewrite En, (proj2 (mem_In _ _) Hn). reflexivity. }
    assert (HE : forall e ed, In e es -> nth_error (he h) e = Some ed -> nth_error (he H) e = Some (Oedge (g_1 ed) (g_2 ed) (g_dangling ed) (ekey e))).
    { intros e ed He Ee. unfold H. rewrite h_named_edge by assumption. rewrite Ee, (proj2 (mem_In _ _) He). reflexivity. }
    assert (ER : forall e, In e es -> exists ed, nth_error (he h) e = Some ed).
    { intros e He. apply AE in He as (n & k & Hn & Hs). destruct (so_edge SO Hn Hs) as (ed & Ed & _). eauto. }
    assert (NKI : forall n m, In n ns -> In m ns -> nkey n = nkey m -> n = m).
    { intros n m Hn Hm Q. apply node_name_inj in Q. exact (index_inj Hn Hm Q). }
    assert (EKI : forall n m, In n es -> In m es -> ekey n = ekey m -> n = m).
    { intros n m Hn Hm Q. apply edge_name_inj in Q. exact (index_inj Hn Hm Q). }
    set (ids := rev (map (fun n => (name_of h1 n, n)) (seq b (length ord)))).
    assert (NB : forall n, In n ord -> name_of h1 (b + nindex n ord) = nkey n).
    { intros n Hn. rewrite NM by (apply index_of_lt, Hn). rewrite nth_nindex by exact Hn. apply IO in Hn. destruct (so_node SO Hn) as (nd & En & _). unfold name_of. rewrite (HN n nd Hn En). reflexivity. }
    assert (FE : forall n a, In n ns -> find_end ids (nkey n, a) = Ok (b + nindex n ord, a)).
    { intros n a Hn. apply IO in Hn. unfold find_end. cbn [fst snd]. rewrite (@lookup_uniq _ _ String.eqb ids (nkey n) (b + nindex n ord)); [reflexivity | apply String.eqb_eq | |].
      - unfold ids. rewrite map_rev. apply NoDup_rev. rewrite map_map. cbn [fst]. apply NoDup_map_in; [|apply seq_NoDup]. intros x y Hx Hy Q. apply in_seq in Hx, Hy.
        replace x with (b + (x - b)) in * by lia. replace y with (b + (y - b)) in * by lia. set (i := x - b) in *. set (j := y - b) in *.
        assert (i < length ord) as Hi by lia. assert (j < length ord) as Hj by lia.
        assert (nkey (nth i ord 0) = nkey (nth j ord 0)) as Q'.
        { rewrite <- (NB _ (nth_In ord 0 Hi)), <- (NB _ (nth_In ord 0 Hj)). rewrite !nindex_nth by assumption. exact Q. }
        apply NKI in Q'; [|apply IO, nth_In, Hi | apply IO, nth_In, Hj]. apply (proj1 (NoDup_nth ord 0) ND') in Q'; [congruence | exact Hi | exact Hj].
      - unfold ids. apply -> in_rev. apply in_map_iff. exists (b + nindex n ord). split; [rewrite NB by exact Hn; reflexivity|]. apply in_seq. pose proof (@index_of_lt _ Nat.eq_dec _ _ Hn). lia. }
    assert (LF : load_fnodes h0 (map (fun n => (nkey n, fnode_of H n)) ns) (map nkey ord) = Ok (h1, seq b (length ord))).
    { apply load_fnodes_news with H; [| |exact E1].
      - intros n Hn. apply IO in Hn. apply (lookup_uniq String.eqb_eq); [rewrite MN; apply NoDup_map_in; [exact NKI | exact ND]|]. apply in_map_iff. exists n. auto.
      - intros n Hn. apply IO in Hn. destruct (so_node SO Hn) as (nd & En & _ & A & _). rewrite (HN n nd Hn En). eexists. split; [reflexivity|]. cbn [o_axes o_pay]. split; [|exact A]. intros Q. apply (RK Hn En). rewrite Q in A. destruct (pshape (o_pay nd)); [reflexivity | discriminate]. }
    assert (EF : load_fedges h1 ids (map (fun e => (ekey e, fedge_of H e)) out) (map ekey eo) = Ok (h2, seq (length (he h1)) (length eo))).
    { apply load_fedges_place with (triple_of H ord (seq b (length ord))); [|exact E2]. intros e He. apply IE in He. destruct (ER e He) as (ed & Ed). pose proof He as He'. apply AE in He' as (n & k & Hn & Hs).
      destruct (so_edge SO Hn Hs) as (ed2 & Ed2 & _ & D & N1 & _). assert (ed2 = ed) by congruence. subst ed2. destruct (g_1 ed) as [[m1 l1]|] eqn:G1; [|congruence].
      assert (NH : forall m, In m ns -> name_of H m = nkey m) by (intros m Hm; destruct (so_node SO Hm) as (nd & En & _); unfold name_of; rewrite (HN m nd Hm En); reflexivity).
      pose proof (IN Hn Hs Ed (or_introl G1)) as I1.
      assert (MV : forall m a, In m ns -> move ord (seq b (length ord)) (Some (m, a)) = Some (b + nindex m ord, a)) by (intros m a Hm; rewrite move_seq; destruct (in_dec Nat.eq_dec m ord) as [|F]; [reflexivity | destruct (F (proj2 (IO m) Hm))]).
      exists (fedge_of H e), (b + nindex m1 ord, l1), (move ord (seq b (length ord)) (g_2 ed)). split; [|split; [|split]].
      - apply (lookup_uniq String.eqb_eq); [rewrite ME; apply NoDup_map_in; [|eapply Permutation_NoDup; eassumption] |].
        + intros x y Hx Hy. apply EKI; apply (Permutation_in _ (Permutation_sym PO)); assumption.
        + apply in_map_iff. exists e. split; [reflexivity | apply (Permutation_in _ PO), He].
      - unfold fedge_of. rewrite (HE e ed He Ed). cbn [g_1 fe_1]. rewrite G1. unfold end_name. cbn [fst snd]. rewrite NH by exact I1. apply FE, I1.
      - unfold fedge_of. rewrite (HE e ed He Ed). cbn [g_2 fe_2]. destruct (g_2 ed) as [[m2 l2]|] eqn:G2; cbn [option_map]; [|reflexivity]. pose proof (IN Hn Hs Ed (or_intror G2)) as I2.
        unfold end_name. cbn [fst snd]. rewrite NH by exact I2. rewrite FE by exact I2. cbn [rbind]. rewrite MV by exact I2. reflexivity.
      - unfold triple_of, fedge_of. rewrite (HE e ed He Ed). cbn [g_1 g_2 g_name fe_name]. rewrite G1, MV by exact I1. reflexivity. }
    set (lb := length (he h1)) in *. set (old_n := fun m => name_of h (nth (m - b) ord 0)). set (old_e := fun m => edge_name_of h (nth (m - lb) eo 0)).
    set (h3 := set_names set_edge_name h2 (combine (seq lb (length eo)) (map old_e (seq lb (length eo))))).
    set (h4 := set_names set_node_name h3 (combine (seq b (length ord)) (map old_n (seq b (length ord))))).
    assert (LE : forall j, j < length eo -> exists ed, nth_error (he h2) (lb + j) = Some ed /\ g_name ed = ekey (nth j eo 0)).
    { intros j Hj. rewrite E3, nth_error_app2 by (unfold lb; lia). replace (lb + j - length (he h1)) with j by (unfold lb; lia). rewrite !nth_error_map, (nth_error_nth' eo 0) by exact Hj. cbn [option_map]. eexists. split; [reflexivity|].
      assert (In (nth j eo 0) es) as He by (apply IE, nth_In, Hj). destruct (ER _ He) as (ed & Ed). unfold mk, triple_of. rewrite (HE _ _ He Ed). reflexivity. }
    assert (DN : forall l (f : nat -> string), NoDup l -> forall n, In n l -> lookup String.eqb (combine (map node_name (seq 0 (length (map f l)))) (map f l)) (node_name (nindex n l)) = Some (f n)).
    { intros l f Nl n Hn. rewrite map_length, <- (seq_index Nl), map_map. apply (lookup_uniq String.eqb_eq).
      - rewrite fst_combine by (rewrite !map_length; reflexivity). apply NoDup_map_in; [|exact Nl]. intros x y Hx Hy Q. apply node_name_inj in Q. exact (index_inj Hx Hy Q).
      - exact (@in_combine_map2 _ _ _ (fun x => node_name (nindex x l)) f l n Hn). }
    assert (DE : forall l (f : nat -> string), NoDup l -> forall n, In n l -> lookup String.eqb (combine (map edge_name (seq 0 (length (map f l)))) (map f l)) (edge_name (nindex n l)) = Some (f n)).
    { intros l f Nl n Hn. rewrite map_length, <- (seq_index Nl), map_map. apply (lookup_uniq String.eqb_eq).
      - rewrite fst_combine by (rewrite !map_length; reflexivity). apply NoDup_map_in; [|exact Nl]. intros x y Hx Hy Q. apply edge_name_inj in Q. exact (index_inj Hx Hy Q).
      - exact (@in_combine_map2 _ _ _ (fun x => edge_name (nindex x l)) f l n Hn). }
    exists h4, (seq b (length ord)), ord. split; [|split; [exact PN|split; [rewrite <- MK; exact KN|]]].
    - unfold load_nodes. cbn [fl_nodes fl_edges fl_node_names fl_edge_names]. change (fun n => (node_name (nindex n ns), fnode_of H n)) with (fun n => (nkey n, fnode_of H n)). change (fun e => (edge_name (nindex e es), fedge_of H e)) with (fun e => (ekey e, fedge_of H e)). rewrite MN, ME, KN, LF. cbn [rbind fst snd]. rewrite KE. fold ids. rewrite EF. cbn [rbind fst snd].
      rewrite (@rename_ok _ _ _ (fun m => ekey (nth (m - lb) eo 0)) old_e (seq lb (length eo)) (seq_NoDup _ _)).
      + cbn [rbind]. fold h3. rewrite (@rename_ok _ _ _ (fun m => nkey (nth (m - b) ord 0)) old_n (seq b (length ord)) (seq_NoDup _ _)); [reflexivity | |].
        * intros hh n x m Nm. rewrite set_node_nth. destruct (Nat.eqb_spec m n); [contradiction|]. destruct (nth_error (hn hh) m); reflexivity.
        * intros m Hm. apply in_seq in Hm. assert (m - b < length ord) as Hi by lia. assert (In (nth (m - b) ord 0) ns) as Hn by (apply IO, nth_In, Hi). split.
          -- unfold h3. rewrite set_edges_hn. destruct (cp_node CP Hi) as (nd & nd' & A1 & A2 & A3 & _). rewrite seq_nth in A2 by exact Hi. replace (b + (m - b)) with m in A2 by lia. rewrite A2. cbn. rewrite A3. destruct (so_node SO Hn) as (nd0 & E0 & _). rewrite (HN _ _ Hn E0) in A1. inversion A1; subst nd. reflexivity.
          -- unfold old_n. apply (DN ns (name_of h) ND _ Hn).
      + intros hh n x m Nm. rewrite set_edge_nth. destruct (Nat.eqb_spec m n); [contradiction|]. destruct (nth_error (he hh) m); reflexivity.
      + intros m Hm. apply in_seq in Hm. assert (m - lb < length eo) as Hj by lia. assert (In (nth (m - lb) eo 0) es) as He by (apply IE, nth_In, Hj). split.
        * destruct (LE (m - lb) Hj) as (ed & A1 & A2). replace (lb + (m - lb)) with m in A1 by lia. rewrite A1. cbn. rewrite A2. reflexivity.
        * unfold old_e. apply (DE es (edge_name_of h) NE _ He).
    - assert (H4N : forall m, nth_error (hn h4) m = option_map (node_named (if mem m (seq b (length ord)) then Some (old_n m) else None)) (nth_error (hn h2) m)).
      { intros m. unfold h4. rewrite set_nodes_nth by (rewrite fst_combine; [apply seq_NoDup | rewrite map_length; reflexivity]). unfold h3. rewrite set_edges_hn. f_equal. f_equal. destruct (mem m _) eqn:M.
        - apply mem_In in M. apply (lookup_uniq Nat.eqb_eq); [rewrite fst_combine; [apply seq_NoDup | rewrite map_length; reflexivity] | apply in_combine_map, M].
        - apply mem_nIn in M. apply (lookup_none Nat.eqb_eq). rewrite fst_combine; [exact M | rewrite map_length; reflexivity]. }
      assert (H4E : forall m, nth_error (he h4) m = option_map (edge_named (if mem m (seq lb (length eo)) then Some (old_e m) else None)) (nth_error (he h2) m)).
      { intros m. unfold h4. rewrite set_nodes_he. unfold h3. rewrite set_edges_nth by (rewrite fst_combine; [apply seq_NoDup | rewrite map_length; reflexivity]). f_equal. f_equal. destruct (mem m _) eqn:M.
        - apply mem_In in M. apply (lookup_uniq Nat.eqb_eq); [rewrite fst_combine; [apply seq_NoDup | rewrite map_length; reflexivity] | apply in_combine_map, M].
        - apply mem_nIn in M. apply (lookup_none Nat.eqb_eq). rewrite fst_combine; [exact M | rewrite map_length; reflexivity]. }
      assert (SB4 : same_but_names h2 h4) by (eexists _, _; split; [exact H4N | exact H4E]).
      split; [|split].
      + constructor.
        * apply seq_NoDup.
        * apply seq_length.
        * intros i Hi. destruct (cp_node CP Hi) as (nd & nd' & A1 & A2 & A3 & A4 & A5 & A6 & A7). assert (In (nth i ord 0) ns) as Hn by (apply IO, nth_In, Hi). destruct (so_node SO Hn) as (nd0 & E0 & _). rewrite (HN _ _ Hn E0) in A1. inversion A1; subst nd. cbn [o_axes o_backend o_pay o_edges] in *.
          exists nd0. rewrite seq_nth in * by exact Hi. rewrite H4N, A2. cbn [option_map]. assert (mem (b + i) (seq b (length ord)) = true) as -> by (apply mem_In, in_seq; lia). eexists. split; [exact E0|]. split; [reflexivity|]. cbn [node_named o_name o_axes o_backend o_pay o_edges].
          split; [|auto]. unfold old_n, name_of. replace (b + i - b) with i by lia. rewrite E0. reflexivity.
        * intros i k e ed Hi Hs Ed. pose proof (slot_names (nth i ord 0) k SB) as SQ. rewrite Hs in SQ. assert (In e es) as He by (apply AE; exists (nth i ord 0), k; split; [apply IO, nth_In, Hi | exact Hs]).
          destruct (cp_edge CP Hi SQ (HE e ed He Ed)) as (e' & ed' & A1 & A2 & A3 & A4 & A5 & A6). cbn [g_1 g_2 g_name] in *. exists e'. rewrite (slot_names _ _ SB4), H4E, A2. cbn [option_map]. eexists. split; [exact A1|]. split; [reflexivity|].
          assert (e' = lb + nindex e eo) as ->.
          { pose proof A1 as A1'. rewrite seq_nth in A1' by exact Hi. destruct (copy_ok SO' ND' PAY AE' false h0) as (g1 & g2 & G1 & G2 & _ & _ & _ & _ & GS). fold b in G2, GS. assert (g1 = h1) by congruence. subst g1. assert (g2 = h2) by congruence. subst g2.
            rewrite (GS i k (nindex e eo) Hi) in A1'; [unfold lb; congruence | rewrite nth_nindex by (apply IE, He); exact SQ | apply index_of_lt, IE, He]. }
          assert (nindex e eo < length eo) as Hj by (apply index_of_lt, IE, He). assert (mem (lb + nindex e eo) (seq lb (length eo)) = true) as -> by (apply mem_In, in_seq; lia). cbn [edge_named g_1 g_2 g_dangling g_name].
          split; [|auto]. unfold old_e, edge_name_of. replace (lb + nindex e eo - lb) with (nindex e eo) by lia. rewrite nth_nindex by (apply IE, He). rewrite Ed. reflexivity.
        * intros i k j l e1 e2 f1 f2 Hi Hj S1 S2 T1 T2. rewrite (slot_names _ _ SB4) in T1. rewrite (slot_names _ _ SB4) in T2. rewrite <- (slot_names _ _ SB) in S1. rewrite <- (slot_names _ _ SB) in S2. exact (cp_same CP Hi Hj S1 S2 T1 T2).
      + destruct EX as [X1 X2]. destruct (@news_ok _ (map (spec_of id H) ord) h0) as (g1 & G1 & GX & _ & _); [intros s Hs; apply in_map_iff in Hs as (n & <- & Hn); apply (spec_of_ok SO' PAY Hn)|]. assert (g1 = h1) by congruence. subst g1. split.
        * intros n nd En. rewrite H4N. rewrite (X1 n nd En). cbn [option_map]. assert (mem n (seq b (length ord)) = false) as ->; [|reflexivity]. apply mem_nIn. intros Q. apply in_seq in Q. apply nth_error_lt in En. unfold b in Q. lia.
        * intros e ed Ee. rewrite H4E. rewrite (X2 e ed Ee). cbn [option_map]. assert (mem e (seq lb (length eo)) = false) as ->; [|reflexivity]. apply mem_nIn. intros Q. apply in_seq in Q. apply (proj2 GX) in Ee. apply nth_error_lt in Ee. unfold lb in Q. lia.
      + intros n Hn. apply in_seq in Hn. unfold b in Hn. lia.
  Qed.

  (** up to ten nodes come back in the order in which they were given when keys are listed alphabetically *)
  Theorem file_order (h0 : heap) : (forall l, keys l = sort String.leb l) -> length ns <= 10 -> exists f h1, save_nodes h ns es = Ok (f, h1) /\ exists h' ns', load_nodes keys h0 f = Ok (h', ns') /\ copied h ns h' ns'.
  Proof.
    intros K L. destruct (file_round h0) as (f & h1 & E & h' & ns' & ord & LD & P & KO & CP & _). exists f, h1. split; [exact E|]. exists h', ns'. split; [exact LD|].
    assert (keys (map node_name (seq 0 (length ns))) = map node_name (seq 0 (length ns))) as Q.
    { rewrite K. revert L. generalize (length ns) as n. intros n L. do 11 (destruct n as [|n]; [vm_compute; reflexivity|]). lia. }
    rewrite Q, <- (seq_index ND), map_map in KO. assert (ord = ns); [|congruence]. clear -KO P ND.
    assert (forall n, In n ord -> In n ns) as IO by (intros n; apply Permutation_in; symmetry; exact P).
    assert (forall l, (forall n, In n l -> In n ns) -> forall m, (forall n, In n m -> In n ns) -> map (fun n => node_name (nindex n ns)) l = map (fun n => node_name (nindex n ns)) m -> l = m) as G.
    { induction l as [|x l IH]; intros A [|y m] B E; cbn in E; try discriminate; [reflexivity|]. inversion E as [[E1 E2]]. f_equal; [apply index_inj with ns; [apply A; left; reflexivity | apply B; left; reflexivity | apply digits_inj; assumption] | apply IH; auto with datatypes]. }
    symmetry. apply G; auto.
  Qed.
End Load.
