(** * GraphSliceFacts: slicing an edge restricts its index *)
From Coq Require Import ZArith.
From Verif Require Import Prelude Algebra Tensor TensorFacts Einsum EinsumFacts NetworkFacts Graph GraphBase GraphContract GraphOps GraphValue GraphSlice.
Set Implicit Arguments.
Unset Strict Implicit.

(** ** Specification *)
Section Spec.
  Context {R : csr}.
  Notation st := (@st R).
  Implicit Types (s : st) (e f : eid).

  (** index lo + i in place of i on all axes carrying the edge e *)
  Definition shift_at (e lo : nat) (es ix : list nat) : list nat :=
    map (fun p => if Nat.eqb (fst p) e then lo + snd p else snd p) (combine es ix).
  (** value of the network of the nodes S with the edge e held at x *)
  Definition held s (S : list nid) e (x : nat) (a : eid -> nat) : R :=
    einsum Nat.eq_dec (edim s) (remove Nat.eq_dec e (repeated Nat.eq_dec (net_labels (net_of s S)))) (net_of s S) (upd Nat.eq_dec a e x).
  (** the tensors carrying e are restricted to lo, ..., lo+k-1, nothing else changes *)
  Record sliced s s' e (lo k : nat) : Prop := {
    sl_wf : wf s';
    sl_edges : s_edges s' = s_edges s;
    sl_none : forall n, s_nodes s n = None -> s_nodes s' n = None;
    sl_node : forall n nd, s_nodes s n = Some nd -> exists t,
      s_nodes s' n = Some (Node t (n_edges nd) (n_names nd)) /\
      shape t = map (fun f => if Nat.eqb f e then k else edim s f) (n_edges nd) /\
      forall ix, length ix = length (n_edges nd) -> elt t ix = elt (n_t nd) (shift_at e lo (n_edges nd) ix)
  }.
End Spec.

Section Facts.
  Context {R : csr}.
  Notation st := (@st R).
  Notation node := (@node R).
  Implicit Types (s : st) (e f : eid).
  Implicit Types (P : list (nid * nat)).

  Definition inb (p : nid * nat) P : bool := existsb (slot_eqb p) P.
  Lemma inb_spec p P : reflect (In p P) (inb p P).
  Proof.
    unfold inb. destruct (existsb (slot_eqb p) P) eqn:E; constructor.
    - apply existsb_exists in E. destruct E as (q & Hq & E). destruct (slot_eqb_spec p q); [subst; exact Hq|discriminate].
    - intros H. assert (existsb (slot_eqb p) P = true); [|congruence]. apply existsb_exists. exists p. split; [exact H|]. destruct (slot_eqb_spec p p); congruence.
  Qed.
  Definition shiftP (n : nid) P (lo : nat) (ix : list nat) : list nat :=
    map (fun i => if inb (n, i) P then lo + nth i ix 0 else nth i ix 0) (seq 0 (length ix)).

  Lemma nth_shiftP n P lo ix i : i < length ix -> nth i (shiftP n P lo ix) 0 = if inb (n, i) P then lo + nth i ix 0 else nth i ix 0.
  Proof.
    intros Hi. unfold shiftP. set (f := fun i => _). rewrite (nth_indep _ 0 (f 0)) by (rewrite map_length, seq_length; exact Hi).
    rewrite map_nth, seq_nth by exact Hi. reflexivity.
  Qed.
  Lemma nth_replace k x (l : list nat) i : k < length l -> nth i (replace_nth k x l) 0 = if Nat.eqb i k then x else nth i l 0.
  Proof.
    intros Hk. rewrite <- !nth_default_eq. unfold nth_default. rewrite nth_error_replace_nth. destruct (Nat.eqb_spec i k); [|reflexivity].
    destruct (Nat.ltb_spec k (length l)); [reflexivity|lia].
  Qed.

  (** state after slicing the ends P *)
  Record mid s s' P (d lo k : nat) : Prop := {
    md_edges : s_edges s' = s_edges s; md_nn : s_nn s' = s_nn s; md_ne : s_ne s' = s_ne s;
    md_none : forall n, s_nodes s n = None -> s_nodes s' n = None;
    md_node : forall n nd, s_nodes s n = Some nd -> exists t, s_nodes s' n = Some (Node t (n_edges nd) (n_names nd)) /\ rank t = rank (n_t nd) /\
      (forall j, j < rank (n_t nd) -> nth j (shape t) 0 = if inb (n, j) P then k else nth j (shape (n_t nd)) 0) /\
      (forall ix, length ix = rank (n_t nd) -> elt t ix = elt (n_t nd) (shiftP n P lo ix))
  }.
  Lemma mid_nil s d lo k : mid s s [] d lo k.
  Proof.
    split; auto. intros n nd Hn. exists (n_t nd). destruct nd as [t es nm]. cbn. split; [exact Hn|]. split; [reflexivity|]. split; [reflexivity|].
    intros ix Hix. f_equal. apply (nth_ext _ _ 0 0); [unfold shiftP; rewrite map_length, seq_length; reflexivity|]. intros i Hi. rewrite nth_shiftP by exact Hi. reflexivity.
  Qed.
  Lemma mid_step s s' P n a nd d start len : mid s s' P d (py_bound d start) (py_len d start len) -> s_nodes s n = Some nd -> a < rank (n_t nd) -> nth a (shape (n_t nd)) 0 = d -> ~ In (n, a) P ->
    exists s'', slice_end start len (n, a) s' = (s'', Some tt) /\ mid s s'' ((n, a) :: P) d (py_bound d start) (py_len d start len).
  Proof.
    intros Hm Hn Ha Hd HP. destruct (md_node Hm Hn) as (t & K1 & K2 & K3 & K4).
    unfold slice_end, bind, get_node, guard. cbn [fst snd]. rewrite K1. cbn [n_t n_edges n_names]. rewrite K2. destruct (Nat.ltb_spec a (rank (n_t nd))); [|lia].
    eexists. split; [reflexivity|].
    assert (nth a (shape t) 0 = d) as Hd'. { rewrite K3 by exact Ha. destruct (inb_spec (n, a) P); [contradiction|exact Hd]. }
    assert (forall i m, inb (m, i) ((n, a) :: P) = (Nat.eqb i a && Nat.eqb m n) || inb (m, i) P) as Hin by reflexivity.
    split; cbn [s_edges s_nn s_ne s_nodes]; try apply Hm.
    - intros m Hmn. unfold upd. destruct (Nat.eq_dec m n) as [->|]; [congruence|]. apply (md_none Hm), Hmn.
    - intros m md Hmd. unfold upd. destruct (Nat.eq_dec m n) as [->|Hne].
      + rewrite Hn in Hmd. injection Hmd as <-. eexists. split; [reflexivity|]. unfold slice_axis, rank. cbn [shape elt]. rewrite Hd'. rewrite replace_nth_length. split; [exact K2|]. split.
        * intros j Hj. rewrite nth_replace by (fold (rank t); lia). rewrite Hin, Nat.eqb_refl, andb_true_r. destruct (Nat.eqb_spec j a); [reflexivity|]. apply K3, Hj.
        * intros ix Hix. rewrite K4 by (rewrite replace_nth_length; exact Hix). f_equal. unfold rank in *.
          apply (nth_ext _ _ 0 0); [unfold shiftP; rewrite !map_length, !seq_length, replace_nth_length; reflexivity|].
          intros i Hi. unfold shiftP in Hi. rewrite map_length, seq_length, replace_nth_length in Hi.
          rewrite !nth_shiftP by (rewrite ?replace_nth_length; exact Hi). rewrite Hin, Nat.eqb_refl, andb_true_r. rewrite nth_replace by lia.
          destruct (Nat.eqb_spec i a) as [->|]; [|reflexivity]. destruct (inb_spec (n, a) P); [contradiction|reflexivity].
      + destruct (md_node Hm Hmd) as (t' & L1 & L2 & L3 & L4). exists t'. split; [exact L1|]. split; [exact L2|].
        assert (forall i, inb (m, i) ((n, a) :: P) = inb (m, i) P) as Hi. { intros i. rewrite Hin. apply Nat.eqb_neq in Hne. rewrite Hne, andb_false_r. reflexivity. }
        split; [intros j Hj; rewrite Hi; apply L3, Hj|]. intros ix Hix. rewrite (L4 ix Hix). f_equal. unfold shiftP. apply map_ext. intros i. rewrite Hi. reflexivity.
  Qed.
  Lemma mid_all s d start len Q : NoDup Q -> (forall n a, In (n, a) Q -> exists nd, s_nodes s n = Some nd /\ a < rank (n_t nd) /\ nth a (shape (n_t nd)) 0 = d) ->
    forall s' P, mid s s' P d (py_bound d start) (py_len d start len) -> (forall p, In p Q -> ~ In p P) ->
    exists s'' P', mfor Q (slice_end start len) s' = (s'', Some tt) /\ mid s s'' P' d (py_bound d start) (py_len d start len) /\ (forall p, In p P' <-> In p Q \/ In p P).
  Proof.
    induction Q as [|[n a] Q IH]; intros HN HQ s' P Hm HP; cbn [mfor].
    - exists s', P. split; [reflexivity|]. split; [exact Hm|]. intros p. cbn. tauto.
    - inversion HN as [|x l Hx HN' E]; subst. destruct (HQ n a (or_introl eq_refl)) as (nd & H1 & H2 & H3).
      destruct (mid_step Hm H1 H2 H3 (HP _ (or_introl eq_refl))) as (s1 & E1 & M1). unfold bind at 1. rewrite E1.
      destruct (IH HN' (fun n a Hi => HQ n a (or_intror Hi)) s1 ((n, a) :: P) M1) as (s2 & P' & E2 & M2 & HI).
      + intros p Hp [<-|Hp2]; [contradiction|]. apply (HP p (or_intror Hp) Hp2).
      + exists s2, P'. split; [exact E2|]. split; [exact M2|]. intros p. rewrite HI. cbn. tauto.
  Qed.

  Lemma slice_ok s e p start len : wf s -> slot s p = Some e -> let d := edim s e in
    (0 < len)%Z -> (start + len <= Z.of_nat d)%Z -> ~ (- len < start < 0)%Z ->
    exists s', slice_edge e start len s = (s', Some e) /\ sliced s s' e (py_bound d start) (py_len d start len).
  Proof.
    intros W Hp d H1 H2 H3. destruct (wf_slot W Hp) as (ed & E1 & E2 & E3 & E4 & E5).
    assert (forall q, In q (ends ed) -> slot s q = Some e) as Hq by (intros q Hq; apply E5; auto).
    assert (forall q, slot s q = Some e -> In q (ends ed)) as Hq'. { intros q Hs. destruct (wf_slot W Hs) as (ed' & G1 & _ & G3 & _). congruence. }
    assert (forall n a, In (n, a) (ends ed) -> exists nd, s_nodes s n = Some nd /\ a < rank (n_t nd) /\ nth a (shape (n_t nd)) 0 = d) as Hends.
    { intros n a Hi. pose proof (Hq _ Hi) as Hs. destruct (slot_node Hs) as (nd & Hn & Hk). exists nd. split; [exact Hn|].
      rewrite <- (wf_rank W Hn). split; [apply nth_error_Some; congruence|]. pose proof (edim_dimat W Hs) as Hd. unfold dimat in Hd. cbn in Hd. rewrite Hn in Hd.
      apply nth_error_nth. exact Hd. }
    destruct (mid_all (start := start) (len := len) E4 Hends (mid_nil s d (py_bound d start) (py_len d start len)) (fun p _ H => H)) as (s' & P' & K & Hm & HP').
    assert (forall n i, inb (n, i) P' = match slot s (n, i) with Some f => Nat.eqb f e | None => false end) as Hin.
    { intros n i. destruct (inb_spec (n, i) P') as [Hi|Hi]; rewrite HP' in Hi.
      - destruct Hi as [Hi|[]]. rewrite (Hq _ Hi), Nat.eqb_refl. reflexivity.
      - destruct (slot s (n, i)) as [f|] eqn:Es; [|reflexivity]. destruct (Nat.eqb_spec f e) as [->|]; [|reflexivity]. exfalso. apply Hi. left. apply Hq', Es. }
    exists s'. split.
    - unfold slice_edge, bind at 1, guard. destruct (Z.ltb_spec 0 len); [|lia]. unfold ret at 1. cbv beta iota.
      unfold bind at 1. unfold edge_dim, bind at 1, get_edge at 1. rewrite E1, E2. unfold bind at 1, get_node at 1.
      assert (slot s (e_n1 ed, e_a1 ed) = Some e) as Hs1 by (apply Hq; left; reflexivity). destruct (slot_node Hs1) as (nd1 & Hn1 & _). rewrite Hn1.
      pose proof (edim_dimat W Hs1) as Hd1. unfold dimat in Hd1. cbn [fst snd] in Hd1. rewrite Hn1 in Hd1. rewrite Hd1. unfold ret at 1. cbv beta iota. fold d.
      unfold bind at 1. replace (negb _) with true.
      2: { symmetry. apply negb_true_iff, orb_false_iff. split; [apply Z.ltb_ge; lia|]. apply andb_false_iff. destruct (Z.ltb_spec (- len) start), (Z.ltb_spec start 0); auto; lia. }
      unfold ret at 1. cbv beta iota. unfold bind at 1, get_edge at 1. rewrite E1, E2. unfold bind at 1. rewrite K. reflexivity.
    - assert (forall n nd, s_nodes s n = Some nd -> exists t, s_nodes s' n = Some (Node t (n_edges nd) (n_names nd)) /\
        shape t = map (fun f => if Nat.eqb f e then py_len d start len else edim s f) (n_edges nd) /\
        forall ix, length ix = length (n_edges nd) -> elt t ix = elt (n_t nd) (shift_at e (py_bound d start) (n_edges nd) ix)) as Hnode.
      { intros n nd Hn. destruct (md_node Hm Hn) as (t & K1 & K2 & K3 & K4). exists t. split; [exact K1|].
        pose proof (wf_rank W Hn) as Hr. pose proof (wf_fits W Hn) as Hf. unfold fits in Hf. cbn [fst snd] in Hf.
        assert (forall j, j < length (n_edges nd) -> inb (n, j) P' = Nat.eqb (nth j (n_edges nd) 0) e) as Hj.
        { intros j Hj. rewrite Hin. unfold slot. cbn. rewrite Hn, (nth_error_nth' _ 0 Hj). reflexivity. }
        split.
        - apply (nth_ext _ _ 0 0); [rewrite map_length, Hr; exact K2|]. intros j Hjl. change (j < rank t) in Hjl. rewrite K2, <- Hr in Hjl.
          rewrite K3 by lia. rewrite Hj by exact Hjl. set (g := fun f : eid => _). rewrite (nth_indep (map g (n_edges nd)) 0 (g 0)) by (rewrite map_length; exact Hjl). rewrite map_nth. unfold g.
          destruct (Nat.eqb (nth j (n_edges nd) 0) e); [reflexivity|]. rewrite Hf. rewrite (nth_indep (map (edim s) (n_edges nd)) 0 (edim s 0)) by (rewrite map_length; exact Hjl). apply map_nth.
        - intros ix Hix. rewrite K4 by lia. f_equal. apply (nth_ext _ _ 0 0).
          + unfold shiftP, shift_at. rewrite !map_length, seq_length, combine_length. lia.
          + intros j Hjl. unfold shiftP in Hjl. rewrite map_length, seq_length in Hjl. rewrite nth_shiftP by exact Hjl. rewrite Hj by lia. unfold shift_at.
            set (g := fun q : nat * nat => _). rewrite (nth_indep (map g _) 0 (g (0, 0))) by (rewrite map_length, combine_length; lia). rewrite map_nth, combine_nth by lia. reflexivity. }
      assert (forall q, slot s' q = slot s q) as Hslot.
      { intros [n k]. unfold slot. cbn. destruct (s_nodes s n) as [nd|] eqn:Hn; [destruct (Hnode n nd Hn) as (t & -> & _)|rewrite (md_none Hm Hn)]; reflexivity. }
      assert (forall q f, slot s q = Some f -> dimat s' q = Some (if Nat.eqb f e then py_len d start len else edim s f)) as Hdim.
      { intros [n k] f Hs. destruct (slot_node Hs) as (nd & Hn & Hk). destruct (Hnode n nd Hn) as (t & K1 & K2 & _). unfold dimat. cbn. rewrite K1. cbn. rewrite K2.
        apply map_nth_error with (f := fun f => if Nat.eqb f e then py_len d start len else edim s f) in Hk. exact Hk. }
      split; [|apply Hm|apply Hm|exact Hnode]. split.
      + intros n nd Hn. destruct (s_nodes s n) as [nd0|] eqn:Hn0; [|rewrite (md_none Hm Hn0) in Hn; discriminate].
        destruct (Hnode n nd0 Hn0) as (t & K1 & K2 & _). rewrite K1 in Hn. injection Hn as <-. cbn. unfold rank. rewrite K2, map_length. reflexivity.
      + intros n nd Hn. rewrite (md_nn Hm). destruct (s_nodes s n) as [nd0|] eqn:Hn0; [apply (wf_nn W Hn0)|]. rewrite (md_none Hm Hn0) in Hn. discriminate.
      + intros f fd Hf. rewrite (md_ne Hm). rewrite (md_edges Hm) in Hf. apply (wf_ne W Hf).
      + intros q f Hs. rewrite Hslot in Hs. destruct (wf_slot W Hs) as (fd & G1 & G2 & G3 & G4 & G5). exists fd. rewrite (md_edges Hm).
        repeat split; auto; [rewrite Hslot; apply G5; auto|]. rewrite (Hdim q f Hs). apply Hdim. apply G5; auto.
  Qed.

  (** ** Values *)
  Lemma sliced_edim s s' e lo k f p : wf s -> slot s p = Some f -> sliced s s' e lo k -> edim s' f = if Nat.eqb f e then k else edim s f.
  Proof.
    intros W Hs SL. destruct p as [n i]. destruct (slot_node Hs) as (nd & Hn & Hk). destruct (sl_node SL Hn) as (t & K1 & K2 & _).
    assert (slot s' (n, i) = Some f) as Hs' by (unfold slot; cbn; rewrite K1; exact Hk).
    pose proof (edim_dimat (sl_wf SL) Hs') as Hd. unfold dimat in Hd. cbn in Hd. rewrite K1 in Hd. cbn in Hd. rewrite K2 in Hd.
    apply map_nth_error with (f := fun f => if Nat.eqb f e then k else edim s f) in Hk. rewrite Hk in Hd. injection Hd as <-. reflexivity.
  Qed.
  Lemma shift_map e lo es (a : eid -> nat) : shift_at e lo es (map a es) = map (upd Nat.eq_dec a e (lo + a e)) es.
  Proof.
    unfold shift_at. induction es as [|f es IH]; [reflexivity|]. cbn [map combine]. f_equal; [|exact IH]. cbn. unfold upd.
    destruct (Nat.eqb_spec f e), (Nat.eq_dec f e); congruence.
  Qed.
  Lemma sliced_prod s s' e lo k S a : (forall n, In n S -> s_nodes s n <> None) -> sliced s s' e lo k ->
    netprod (net_of s' S) a = netprod (net_of s S) (upd Nat.eq_dec a e (lo + a e)) /\ net_labels (net_of s' S) = net_labels (net_of s S).
  Proof.
    intros HS SL. induction S as [|n S IH]; [split; reflexivity|]. destruct IH as [I1 I2]; [intros m Hm; apply HS; right; exact Hm|].
    destruct (s_nodes s n) as [nd|] eqn:Hn; [|destruct (HS n (or_introl eq_refl) Hn)]. destruct (sl_node SL Hn) as (t & K1 & K2 & K3).
    cbn [net_of map net_labels flat_map]. change (map (fac s) S) with (net_of s S). change (map (fac s') S) with (net_of s' S).
    change (flat_map (fun x => snd x) (net_of s S)) with (net_labels (net_of s S)). change (flat_map (fun x => snd x) (net_of s' S)) with (net_labels (net_of s' S)).
    rewrite !netprod_cons, I1, I2, (fac_node Hn), (fac_node K1). split; [|reflexivity]. f_equal. unfold fval. cbn [fst snd n_t n_edges].
    rewrite K3 by apply map_length. rewrite shift_map. reflexivity.
  Qed.
  Lemma esum_shift (dim : eid -> nat) ls e lo (g : asg nat -> R) a : ext g -> ~ In e ls ->
    esum Nat.eq_dec dim ls (fun b => g (upd Nat.eq_dec b e (lo + b e))) a = esum Nat.eq_dec dim ls g (upd Nat.eq_dec a e (lo + a e)).
  Proof.
    intros Hg. revert a. induction ls as [|l ls IH]; intros a He; [reflexivity|]. rewrite !esum_cons. apply nsum_ext. intros i Hi.
    rewrite IH by (intros H; apply He; right; exact H). apply esum_asg; [exact Hg|]. intros x.
    assert (l <> e) as Hne by (intros ->; apply He; left; reflexivity). unfold upd.
    destruct (Nat.eq_dec x e), (Nat.eq_dec x l), (Nat.eq_dec e l); congruence.
  Qed.
  Lemma netprod_ext (net : list (factor nat R)) : ext (netprod net).
  Proof. apply (dep_ext (D := net_labels net)). apply netprod_dep. Qed.

  (** e not summed: its index is shifted *)
  Lemma slice_value_open s s' e lo k S a : wf s -> (forall n, In n S -> s_nodes s n <> None) -> sliced s s' e lo k ->
    ~ In e (repeated Nat.eq_dec (net_labels (net_of s S))) ->
    netval s' S a = netval s S (upd Nat.eq_dec a e (lo + a e)).
  Proof.
    intros W HS SL He. unfold netval, value, einsum. rewrite (proj2 (sliced_prod a HS SL)).
    rewrite (@esum_ext_dim nat Nat.eq_dec R (edim s') (edim s)).
    - rewrite (@esum_ext nat Nat.eq_dec R (edim s) _ (netprod (net_of s' S)) (fun b => netprod (net_of s S) (upd Nat.eq_dec b e (lo + b e)))).
      + apply esum_shift; [apply netprod_ext|exact He].
      + intros b. apply (proj1 (sliced_prod b HS SL)).
    - intros f Hf. assert (In f (net_labels (net_of s S))) as Hl by (apply nodup_In, filter_In in Hf; apply Hf).
      apply (In_net_labels _ _ W) in Hl. destruct Hl as (n & i & _ & Hs). rewrite (sliced_edim W Hs SL). destruct (Nat.eqb_spec f e) as [->|]; [contradiction|reflexivity].
  Qed.
  Lemma slice_value_sum s s' e lo k S a : wf s -> (forall n, In n S -> s_nodes s n <> None) -> sliced s s' e lo k ->
    In e (repeated Nat.eq_dec (net_labels (net_of s S))) ->
    netval s' S a = nsum k (fun i => held s S e (lo + i) a).
  Proof.
    intros W HS SL He. unfold netval, value, einsum. rewrite (proj2 (sliced_prod a HS SL)). set (rep := repeated Nat.eq_dec (net_labels (net_of s S))) in *.
    assert (NoDup rep) as HN by apply NoDup_nodup.
    assert (Permutation rep (e :: remove Nat.eq_dec e rep)) as HP.
    { apply NoDup_Permutation; [exact HN|constructor; [apply remove_In|]|].
      - clear - HN. induction rep as [|x r IH]; [constructor|]. inversion HN as [|y l Hx HN' E]; subst. cbn. destruct (Nat.eq_dec e x); [apply IH, HN'|].
        constructor; [|apply IH, HN']. intros H. apply in_remove in H. apply Hx, H.
      - intros x. split; intros Hx; [destruct (Nat.eq_dec e x) as [->|Hne]; [left; reflexivity|right; apply in_in_remove; congruence]|].
        destruct Hx as [<-|Hx]; [exact He|apply in_remove in Hx; apply Hx]. }
    assert (forall f, In f rep -> edim s' f = if Nat.eqb f e then k else edim s f) as Hdim.
    { intros f Hf. assert (In f (net_labels (net_of s S))) as Hl by (apply nodup_In, filter_In in Hf; apply Hf).
      apply (In_net_labels _ _ W) in Hl. destruct Hl as (n & i & _ & Hs). apply (sliced_edim W Hs SL). }
    unfold held. fold rep. rewrite (esum_perm Nat.eq_dec (edim s') a (netprod_ext _) HN HP). rewrite esum_cons. rewrite (Hdim e He), Nat.eqb_refl.
    apply nsum_ext. intros i Hi. unfold einsum.
    rewrite (@esum_ext_dim nat Nat.eq_dec R (edim s') (edim s)).
    - rewrite (@esum_ext nat Nat.eq_dec R (edim s) _ (netprod (net_of s' S)) (fun b => netprod (net_of s S) (upd Nat.eq_dec b e (lo + b e)))).
      + rewrite esum_shift; [|apply netprod_ext|apply remove_In]. apply esum_asg; [apply netprod_ext|]. intros x. unfold upd.
        destruct (Nat.eq_dec x e), (Nat.eq_dec e e); congruence.
      + intros b. apply (proj1 (sliced_prod b HS SL)).
    - intros f Hf. apply in_remove in Hf. destruct Hf as [Hf Hne]. rewrite (Hdim f Hf). destruct (Nat.eqb_spec f e); congruence.
  Qed.
  (** [held] is a decomposition of the value *)
  Lemma held_sum s S e a : In e (repeated Nat.eq_dec (net_labels (net_of s S))) -> netval s S a = nsum (edim s e) (fun i => held s S e i a).
  Proof.
    intros He. unfold netval, value, einsum. set (rep := repeated Nat.eq_dec (net_labels (net_of s S))) in *.
    assert (NoDup rep) as HN by apply NoDup_nodup.
    assert (Permutation rep (e :: remove Nat.eq_dec e rep)) as HP.
    { apply NoDup_Permutation; [exact HN|constructor; [apply remove_In|]|].
      - clear - HN. induction rep as [|x r IH]; [constructor|]. inversion HN as [|y l Hx HN' E]; subst. cbn. destruct (Nat.eq_dec e x); [apply IH, HN'|].
        constructor; [|apply IH, HN']. intros H. apply in_remove in H. apply Hx, H.
      - intros x. split; intros Hx; [destruct (Nat.eq_dec e x) as [->|Hne]; [left; reflexivity|right; apply in_in_remove; congruence]|].
        destruct Hx as [<-|Hx]; [exact He|apply in_remove in Hx; apply Hx]. }
    rewrite (esum_perm Nat.eq_dec (edim s) a (netprod_ext _) HN HP). reflexivity.
  Qed.
End Facts.
