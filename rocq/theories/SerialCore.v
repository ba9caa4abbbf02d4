(** * SerialCore: creating nodes, then edges *)
From Coq Require Import String Permutation.
From Verif Require Import Prelude Res Algebra Tensor ListFacts Serial SerialSpec.
Set Implicit Arguments.
Unset Strict Implicit.
Open Scope list_scope.
Open Scope nat_scope.

Section Core.
  Context {R : csr}.
  Notation heap := (@heap R).
  Notation onode := (@onode R).

  Lemma upd_length A (l : list A) k x : length (upd l k x) = length l.
  Proof. unfold upd. rewrite map_length, seq_length. reflexivity. Qed.
  Lemma upd_nth A (l : list A) k x j : nth_error (upd l k x) j = if j <? length l then if j =? k then Some x else nth_error l j else None.
  Proof.
    unfold upd. destruct (Nat.ltb_spec j (length l)) as [H|H].
    - rewrite nth_error_map. rewrite (nth_error_nth' (seq 0 (length l)) 0) by (rewrite seq_length; exact H). rewrite seq_nth by exact H. cbn [option_map Nat.add].
      destruct (nth_error l j) as [y|] eqn:E; [|apply nth_error_None in E; lia]. destruct (j =? k); reflexivity.
    - apply nth_error_None. rewrite map_length, seq_length. exact H.
  Qed.
  Lemma nth_error_lt A (l : list A) k x : nth_error l k = Some x -> k < length l.
  Proof. intros H. apply nth_error_Some. congruence. Qed.
  Lemma nth_error_app_l A (l m : list A) k x : nth_error l k = Some x -> nth_error (l ++ m) k = Some x.
  Proof. intros H. rewrite nth_error_app1 by (eapply nth_error_lt, H). exact H. Qed.
  Lemma nodups_ok l : nodups l = true <-> NoDup l.
  Proof.
    induction l as [|x r IH]; cbn [nodups]; [split; [constructor | reflexivity]|]. rewrite Bool.andb_true_iff, Bool.negb_true_iff, IH. rewrite NoDup_cons_iff.
    assert (existsb (String.eqb x) r = false <-> ~ In x r) as Q; [|rewrite Q; reflexivity].
    split.
    - intros H Hin. assert (existsb (String.eqb x) r = true) by (apply existsb_exists; exists x; split; [exact Hin | apply String.eqb_refl]). congruence.
    - intros H. destruct (existsb (String.eqb x) r) eqn:E; [|reflexivity]. apply existsb_exists in E as (y & Hy & E). apply String.eqb_eq in E. subst. contradiction.
  Qed.

  (** ** nodes *)
  Definition spec := (string * list string * string * @payload R)%type.
  Definition sp_name (s : spec) := fst (fst (fst s)).
  Definition sp_axes (s : spec) := snd (fst (fst s)).
  Definition sp_backend (s : spec) := snd (fst s).
  Definition sp_pay (s : spec) := snd s.
  Definition sp_ok (s : spec) : Prop := NoDup (sp_axes s) /\ length (sp_axes s) = length (pshape (sp_pay s)).
  Fixpoint news (h : heap) (l : list spec) : res heap :=
    match l with [] => Ok h | s :: r => rbind (new_node h (sp_name s) (sp_axes s) (sp_backend s) (sp_pay s)) (fun x => news (fst x) r) end.
  (** a node just created: all its edges dangling, in the heap *)
  Definition fresh (h : heap) (n : nat) (s : spec) : Prop := exists o,
    nth_error (hn h) n = Some (Onode (sp_name s) (sp_axes s) (sp_backend s) (sp_pay s) (seq o (length (sp_axes s)))) /\
    forall k, k < length (sp_axes s) -> exists ed, nth_error (he h) (o + k) = Some ed /\ g_dangling ed = true.
  Lemma extends_refl (h : heap) : extends h h. Proof. split; auto. Qed.
  Lemma extends_trans (h1 h2 h3 : heap) : extends h1 h2 -> extends h2 h3 -> extends h1 h3.
  Proof. intros [A1 A2] [B1 B2]. split; auto. Qed.
  Lemma fresh_extends h h' n s : extends h h' -> fresh h n s -> fresh h' n s.
  Proof. intros [E1 E2] (o & H1 & H2). exists o. split; [apply E1, H1|]. intros k Hk. destruct (H2 k Hk) as (ed & Q1 & Q2). exists ed. split; [apply E2, Q1 | exact Q2]. Qed.
  Lemma new_node_ok (h : heap) s : sp_ok s -> exists h', new_node h (sp_name s) (sp_axes s) (sp_backend s) (sp_pay s) = Ok (h', length (hn h)) /\
    extends h h' /\ length (hn h') = S (length (hn h)) /\ fresh h' (length (hn h)) s.
  Proof.
    intros [H1 H2]. unfold new_node. rewrite (proj2 (nodups_ok _) H1), H2, Nat.eqb_refl. cbn [andb guard]. eexists. split; [reflexivity|]. split; [|split].
    - split; intros; cbn [hn he]; apply nth_error_app_l; assumption.
    - cbn [hn]. rewrite app_length. cbn. lia.
    - exists (length (he h)). cbn [hn he]. split; [rewrite nth_error_app2, Nat.sub_diag by lia; cbn; rewrite H2; reflexivity|].
      intros k Hk. rewrite nth_error_app2 by lia. replace (length (he h) + k - length (he h)) with k by lia. rewrite nth_error_map.
      assert (exists x, nth_error (combine (seq 0 (length (pshape (sp_pay s)))) (sp_axes s)) k = Some x) as [x E].
      { destruct (nth_error (combine (seq 0 (length (pshape (sp_pay s)))) (sp_axes s)) k) eqn:E; [eauto|]. apply nth_error_None in E. rewrite combine_length, seq_length in E. lia. }
      rewrite E. cbn. eauto.
  Qed.
  Lemma news_ok l : forall h : heap, (forall s, In s l -> sp_ok s) -> exists h', news h l = Ok h' /\ extends h h' /\ length (hn h') = length (hn h) + length l /\
    forall i s, nth_error l i = Some s -> fresh h' (length (hn h) + i) s.
  Proof.
    induction l as [|s l IH]; intros h H; cbn [news].
    - exists h. split; [reflexivity|]. split; [apply extends_refl|]. split; [cbn; lia|]. intros [|i] s E; discriminate.
    - destruct (new_node_ok h (H s (or_introl eq_refl))) as (h1 & E1 & X1 & L1 & F1). rewrite E1. cbn [rbind fst].
      destruct (IH h1) as (h2 & E2 & X2 & L2 & F2); [intros; apply H; right; assumption|]. exists h2. split; [exact E2|]. split; [eapply extends_trans; eassumption|]. split; [cbn; lia|].
      intros [|i] s' E.
      + inversion E; subst s'. rewrite Nat.add_0_r. eapply fresh_extends; eassumption.
      + replace (length (hn h) + S i) with (length (hn h1) + i) by lia. apply F2, E.
  Qed.

  (** ** edges *)
  Definition pair_dec : forall x y : nat * nat, {x = y} + {x <> y}.
  Proof. decide equality; apply Nat.eq_dec. Defined.
  Definition triple := (option (nat * nat) * option (nat * nat) * string)%type.
  Definition tends (t : triple) : list (nat * nat) :=
    match fst (fst t) with Some x => [x] | None => [] end ++ match snd (fst t) with Some x => [x] | None => [] end.
  Definition mk (t : triple) : oedge := Oedge (fst (fst t)) (snd (fst t)) (is_none (snd (fst t))) (snd t).
  Definition place1 (ov : bool) (h : heap) (t : triple) : res heap :=
    let (h1, e) := new_edge h (fst (fst t)) (snd (fst t)) (snd t) in
    rbind (put_end (fst (fst t)) e ov h1) (fun h2 => put_end (snd (fst t)) e ov h2).
  Fixpoint place (ov : bool) (h : heap) (l : list triple) : res heap :=
    match l with [] => Ok h | t :: r => rbind (place1 ov h t) (fun h' => place ov h' r) end.
  (** an axis that can be given an edge *)
  Definition settable (ov : bool) (h : heap) (x : nat * nat) : Prop := exists nd e ed,
    nth_error (hn h) (fst x) = Some nd /\ nth_error (o_edges nd) (snd x) = Some e /\ nth_error (he h) e = Some ed /\ (g_dangling ed = true \/ ov = true) /\
    length (o_edges nd) = length (pshape (o_pay nd)).
  (** heaps that differ in the edges on the axes [ps], which are now [f] *)
  Record reset (h h' : heap) (ps : list (nat * nat)) (f : nat -> nat -> option nat) : Prop := {
    rs_len : length (hn h') = length (hn h);
    rs_node : forall n nd, nth_error (hn h) n = Some nd -> exists nd', nth_error (hn h') n = Some nd' /\
      o_name nd' = o_name nd /\ o_axes nd' = o_axes nd /\ o_backend nd' = o_backend nd /\ o_pay nd' = o_pay nd /\ length (o_edges nd') = length (o_edges nd);
    rs_slot : forall n k, slot h' n k = if in_dec pair_dec (n, k) ps then f n k else slot h n k;
    rs_same : forall n, (forall k, ~ In (n, k) ps) -> nth_error (hn h') n = nth_error (hn h) n
  }.
  Lemma reset_nil h h' f : hn h' = hn h -> reset h h' [] f.
  Proof.
    intros E. constructor; rewrite ?E; try reflexivity.
    - intros n nd H. exists nd. repeat split; assumption.
    - intros n k. destruct (in_dec pair_dec (n, k) []) as [[]|_]. unfold slot. rewrite E. reflexivity.
  Qed.
  Lemma reset_app h h1 h2 ps qs f : reset h h1 ps f -> reset h1 h2 qs f -> reset h h2 (ps ++ qs) f.
  Proof.
    intros [A1 A2 A3 A4] [B1 B2 B3 B4]. constructor.
    - congruence.
    - intros n nd H. destruct (A2 n nd H) as (nd1 & Q & ? & ? & ? & ? & ?). destruct (B2 n nd1 Q) as (nd2 & Q2 & ? & ? & ? & ? & ?). exists nd2. repeat split; congruence.
    - intros n k. rewrite B3, A3. destruct (in_dec pair_dec (n, k) qs) as [H|H], (in_dec pair_dec (n, k) ps) as [H'|H'], (in_dec pair_dec (n, k) (ps ++ qs)) as [Q|Q]; try reflexivity; exfalso; rewrite in_app_iff in Q; tauto.
    - intros n H. rewrite B4, A4; [reflexivity | |]; intros k Q; apply (H k); apply in_app_iff; auto.
  Qed.
  Lemma reset_ext h h' ps f g : (forall n k, In (n, k) ps -> f n k = g n k) -> reset h h' ps f -> reset h h' ps g.
  Proof. intros E [A1 A2 A3 A4]. constructor; auto. intros n k. rewrite A3. destruct (in_dec pair_dec (n, k) ps); [apply E; assumption | reflexivity]. Qed.
  Lemma add_edge_ok (h : heap) x e ov : settable ov h x -> exists h', add_edge h (fst x) e (snd x) ov = Ok h' /\ he h' = he h /\ reset h h' [x] (fun _ _ => Some e).
  Proof.
    destruct x as [n k]. intros (nd & old & ed & H1 & H2 & H3 & H4 & H5). cbn [fst snd] in *. unfold add_edge, node_at, edge_at. rewrite H1. cbn [rbind]. rewrite H2, H3. cbn [rbind].
    assert (k < length (o_edges nd)) as Hk by (eapply nth_error_lt, H2). assert (n < length (hn h)) as Hn by (eapply nth_error_lt, H1).
    destruct (Nat.ltb_spec k (length (pshape (o_pay nd)))) as [Q|Q]; [|lia]. replace (g_dangling ed || ov) with true by (destruct H4 as [-> | ->]; [reflexivity | symmetry; apply Bool.orb_true_r]). cbn [andb guard].
    eexists. split; [reflexivity|]. split; [reflexivity|]. constructor; cbn [hn].
    - apply upd_length.
    - intros m md Hm. rewrite upd_nth. assert (m < length (hn h)) as Hm' by (eapply nth_error_lt, Hm). destruct (Nat.ltb_spec m (length (hn h))); [|lia]. destruct (Nat.eqb_spec m n) as [->|N].
      + eexists. split; [reflexivity|]. cbn. rewrite upd_length. rewrite H1 in Hm. inversion Hm; subst. repeat split; reflexivity.
      + exists md. repeat split; assumption.
    - intros m l. unfold slot. cbn [hn]. rewrite upd_nth. destruct (in_dec pair_dec (m, l) [(n, k)]) as [[E|[]]|N].
      + inversion E; subst m l. destruct (Nat.ltb_spec n (length (hn h))); [|lia]. rewrite Nat.eqb_refl. cbn [o_edges]. rewrite upd_nth. destruct (Nat.ltb_spec k (length (o_edges nd))); [|lia]. rewrite Nat.eqb_refl. reflexivity.
      + destruct (Nat.ltb_spec m (length (hn h))) as [Hm|Hm]; [|apply nth_error_None in Hm; rewrite Hm; reflexivity]. destruct (Nat.eqb_spec m n) as [->|Nm]; [|reflexivity].
        rewrite H1. cbn [o_edges]. rewrite upd_nth. destruct (Nat.ltb_spec l (length (o_edges nd))) as [Hl|Hl]; [|symmetry; apply nth_error_None, Hl]. destruct (Nat.eqb_spec l k) as [->|Nl]; [|reflexivity]. exfalso. apply N. left. reflexivity.
    - intros m Hm. rewrite upd_nth. destruct (Nat.ltb_spec m (length (hn h))) as [Q'|Q']; [|symmetry; apply nth_error_None, Q']. destruct (Nat.eqb_spec m n) as [->|]; [|reflexivity]. exfalso. apply (Hm k). left. reflexivity.
  Qed.
  Lemma settable_reset ov h h' ps f x : reset h h' ps f -> (forall e ed, nth_error (he h) e = Some ed -> nth_error (he h') e = Some ed) -> ~ In x ps -> settable ov h x -> settable ov h' x.
  Proof.
    destruct x as [n k]. intros [A1 A2 A3 A4] E N (nd & e & ed & H1 & H2 & H3 & H4 & H5). cbn [fst snd] in *. destruct (A2 n nd H1) as (nd' & Q1 & _ & _ & _ & Q2 & Q3).
    exists nd', e, ed. cbn [fst snd]. split; [exact Q1|]. split; [|split; [apply E, H3|split; [exact H4|congruence]]].
    specialize (A3 n k). destruct (in_dec pair_dec (n, k) ps) as [Q|Q]; [contradiction|]. unfold slot in A3. rewrite Q1, H1 in A3. congruence.
  Qed.
  Lemma place1_ok ov (h : heap) t : NoDup (tends t) -> (forall x, In x (tends t) -> settable ov h x) ->
    exists h', place1 ov h t = Ok h' /\ he h' = he h ++ [mk t] /\ reset h h' (tends t) (fun _ _ => Some (length (he h))).
  Proof.
    destruct t as [[a b] name]. unfold place1, tends, mk. cbn [fst snd new_edge]. intros ND ST. set (h1 := Heap (hn h) (he h ++ [Oedge a b (is_none b) name])).
    assert (reset h h1 [] (fun _ _ => Some (length (he h)))) as R1 by (apply reset_nil; reflexivity).
    assert (forall e ed, nth_error (he h) e = Some ed -> nth_error (he h1) e = Some ed) as X1 by (intros; apply nth_error_app_l; assumption).
    assert (exists h2, put_end a (length (he h)) ov h1 = Ok h2 /\ he h2 = he h1 /\ reset h1 h2 (match a with Some x => [x] | None => [] end) (fun _ _ => Some (length (he h)))) as (h2 & E2 & Q2 & R2).
    { destruct a as [[n k]|]; cbn [put_end]; [|exists h1; split; [reflexivity|split; [reflexivity|apply reset_nil; reflexivity]]].
      destruct (@add_edge_ok h1 (n, k) (length (he h)) ov) as (h2 & E2 & Q2 & R2); [|exists h2; auto]. apply (settable_reset R1 X1); [intros []|]. apply ST. left. reflexivity. }
    rewrite E2. cbn [rbind]. pose proof (reset_app R1 R2) as R12. cbn [app] in R12.
    assert (exists h3, put_end b (length (he h)) ov h2 = Ok h3 /\ he h3 = he h2 /\ reset h2 h3 (match b with Some x => [x] | None => [] end) (fun _ _ => Some (length (he h)))) as (h3 & E3 & Q3 & R3).
    { destruct b as [[n k]|]; cbn [put_end]; [|exists h2; split; [reflexivity|split; [reflexivity|apply reset_nil; reflexivity]]].
      destruct (@add_edge_ok h2 (n, k) (length (he h)) ov) as (h3 & E3 & Q3 & R3); [|exists h3; auto]. apply (settable_reset R12).
      - intros e ed He. rewrite Q2. apply X1, He.
      - destruct a as [x|]; [|intros []]. cbn [app] in ND. inversion ND as [|? ? N _]; subst. intros [E|[]]. subst x. apply N. left. reflexivity.
      - apply ST. apply in_app_iff. right. left. reflexivity. }
    exists h3. split; [exact E3|]. split; [rewrite Q3, Q2; reflexivity|]. exact (reset_app R12 R3).
  Qed.
  (** the number of the edge put on an axis *)
  Fixpoint pos (b : nat) (l : list triple) (n k : nat) : option nat :=
    match l with [] => None | t :: r => if in_dec pair_dec (n, k) (tends t) then Some b else pos (S b) r n k end.
  Lemma pos_in l : forall b n k, In (n, k) (flat_map tends l) -> exists j t, nth_error l j = Some t /\ In (n, k) (tends t) /\ pos b l n k = Some (b + j).
  Proof.
    induction l as [|t l IH]; intros b n k H; cbn [flat_map pos] in *; [destruct H|]. apply in_app_iff in H. destruct (in_dec pair_dec (n, k) (tends t)) as [Q|Q].
    - exists 0, t. rewrite Nat.add_0_r. auto.
    - destruct H as [H|H]; [contradiction|]. destruct (IH (S b) n k H) as (j & t' & E1 & E2 & E3). exists (S j), t'. split; [exact E1|]. split; [exact E2|]. rewrite E3. f_equal. lia.
  Qed.
  Lemma place_ok ov l : forall h : heap, NoDup (flat_map tends l) -> (forall x, In x (flat_map tends l) -> settable ov h x) ->
    exists h', place ov h l = Ok h' /\ he h' = he h ++ map mk l /\ reset h h' (flat_map tends l) (pos (length (he h)) l).
  Proof.
    induction l as [|t l IH]; intros h ND ST; cbn [place flat_map map] in *.
    - exists h. split; [reflexivity|]. split; [symmetry; apply app_nil_r | apply reset_nil; reflexivity].
    - apply NoDup_app_iff in ND as (N1 & N2 & N3). destruct (@place1_ok ov h t N1) as (h1 & E1 & Q1 & R1); [intros; apply ST, in_app_iff; auto|]. rewrite E1. cbn [rbind].
      destruct (IH h1 N2) as (h2 & E2 & Q2 & R2).
      { intros x Hx. apply (settable_reset R1); [intros e ed He; rewrite Q1; apply nth_error_app_l, He | intros Q; exact (N3 x Q Hx) | apply ST, in_app_iff; auto]. }
      exists h2. split; [exact E2|]. split; [rewrite Q2, Q1, <- app_assoc; reflexivity|]. apply reset_app with h1.
      + eapply reset_ext; [|exact R1]. intros n k H. cbn [pos]. destruct (in_dec pair_dec (n, k) (tends t)); [reflexivity | contradiction].
      + eapply reset_ext; [|exact R2]. intros n k H. cbn [pos]. destruct (in_dec pair_dec (n, k) (tends t)) as [Q|Q]; [destruct (N3 _ Q H)|]. rewrite Q1, app_length, Nat.add_1_r. reflexivity.
  Qed.
End Core.
