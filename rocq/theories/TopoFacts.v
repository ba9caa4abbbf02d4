(** * TopoFacts: from_topology builds exactly the named network *)
From Coq Require Import Permutation List Lia.
From Verif Require Import Prelude Algebra Tensor TensorFacts Einsum EinsumFacts NetworkFacts Graph GraphBase GraphConnect GraphContract GraphOps GraphValue GraphLaws GraphTotal GraphCopyFacts Topo TopoSpec.
Import ListNotations.
Set Implicit Arguments.
Unset Strict Implicit.

(** ** strings *)
Lemma split_plain p : ~ In 44 p -> split_commas p = [p].
Proof.
  induction p as [|c p IH]; intros H; [reflexivity|]. cbn [split_commas]. destruct (Nat.eqb_spec c 44) as [->|]; [exfalso; apply H; left; reflexivity|].
  rewrite IH by (intros K; apply H; right; exact K). reflexivity.
Qed.
Lemma split_comma p q : ~ In 44 p -> split_commas (p ++ 44 :: q) = p :: split_commas q.
Proof.
  induction p as [|c p IH]; intros H; [reflexivity|]. cbn [app split_commas]. destruct (Nat.eqb_spec c 44) as [->|]; [exfalso; apply H; left; reflexivity|].
  rewrite IH by (intros K; apply H; right; exact K). reflexivity.
Qed.
Lemma split_commas_ok parts : parts <> [] -> (forall p, In p parts -> ~ In 44 p) -> split_commas (commas parts) = parts.
Proof.
  induction parts as [|p ps IH]; intros Hn H; [congruence|]. destruct ps as [|q ps]; [apply split_plain, H; left; reflexivity|].
  change (commas (p :: q :: ps)) with (p ++ 44 :: commas (q :: ps)). rewrite split_comma by (apply H; left; reflexivity). f_equal. apply IH; [discriminate|]. intros x Hx. apply H. right. exact Hx.
Qed.

(** ** renaming labels *)
Section Rename.
  Variables (L L' : Type) (dec : forall x y : L, {x = y} + {x <> y}) (dec' : forall x y : L', {x = y} + {x <> y}) (R : csr) (f : L -> L').
  Notation relabel net := (map (fun x : factor L R => (fst x, map f (snd x))) net).
  Lemma count_map_inj ls x : (forall y, In y ls -> f x = f y -> x = y) -> count_occ dec' (map f ls) (f x) = count_occ dec ls x.
  Proof.
    induction ls as [|y ls IH]; intros H; [reflexivity|]. cbn [map count_occ]. rewrite IH by (intros z Hz; apply H; right; exact Hz).
    destruct (dec' (f y) (f x)) as [E|E], (dec y x) as [E'|E']; auto; [|congruence]. exfalso. apply E'. symmetry. apply H; [left; reflexivity|congruence].
  Qed.
  Lemma filter_map_ext (p : L -> bool) (p' : L' -> bool) ls : (forall x, In x ls -> p' (f x) = p x) -> filter p' (map f ls) = map f (filter p ls).
  Proof.
    induction ls as [|x ls IH]; intros H; [reflexivity|]. cbn [map filter]. rewrite H by (left; reflexivity). rewrite IH by (intros y Hy; apply H; right; exact Hy). destruct (p x); reflexivity.
  Qed.
  Lemma nodup_map_inj ls : (forall x y, In x ls -> In y ls -> f x = f y -> x = y) -> nodup dec' (map f ls) = map f (nodup dec ls).
  Proof.
    induction ls as [|x ls IH]; intros H; [reflexivity|]. cbn [map nodup]. rewrite IH by (intros y z Hy Hz; apply H; right; assumption).
    destruct (in_dec dec' (f x) (map f ls)) as [I|I], (in_dec dec x ls) as [I'|I']; auto.
    - exfalso. apply I'. apply in_map_iff in I. destruct I as (y & E & Hy). rewrite <- (H y x (or_intror Hy) (or_introl eq_refl) E). exact Hy.
    - exfalso. apply I. apply in_map. exact I'.
  Qed.
  Lemma labels_relabel (net : list (factor L R)) : net_labels (relabel net) = map f (net_labels net).
  Proof. unfold net_labels. induction net as [|x net IH]; [reflexivity|]. cbn [map flat_map fst snd]. rewrite IH, map_app. reflexivity. Qed.

  Lemma value_relabel (dim : L -> nat) (dim' : L' -> nat) (net : list (factor L R)) a :
    (forall x y, In x (net_labels net) -> In y (net_labels net) -> f x = f y -> x = y) -> (forall x, In x (net_labels net) -> dim' (f x) = dim x) ->
    value dec' dim' (relabel net) a = value dec dim net (fun x => a (f x)).
  Proof.
    intros Hi Hd. unfold value, einsum. rewrite labels_relabel. set (ls := net_labels net) in *.
    assert (repeated dec' (map f ls) = map f (repeated dec ls)) as ->.
    { unfold repeated. rewrite (filter_map_ext (p := fun x => Nat.leb 2 (count_occ dec ls x))).
      - apply nodup_map_inj. intros x y Hx Hy. apply filter_In in Hx. apply filter_In in Hy. apply Hi; [apply Hx|apply Hy].
      - intros x Hx. rewrite count_map_inj; [reflexivity|]. intros y Hy. apply Hi; assumption. }
    assert (forall x, In x (repeated dec ls) -> In x ls) as Hsub.
    { intros x Hx. unfold repeated in Hx. apply nodup_In, filter_In in Hx. apply Hx. }
    revert a Hsub. induction (repeated dec ls) as [|l r IH]; intros a Hsub.
    - cbn [map esum]. unfold netprod. unfold ls in *. clear - Hi. induction net as [|x net IH]; [reflexivity|]. cbn [map]. rewrite !lprod_cons. f_equal.
      + unfold fval. cbn [fst snd]. rewrite map_map. reflexivity.
      + apply IH. intros y z Hy Hz. apply Hi; unfold net_labels; cbn [flat_map]; apply in_or_app; right; assumption.
    - cbn [map esum]. rewrite Hd by (apply Hsub; left; reflexivity). apply nsum_ext. intros i Hi'. rewrite IH by (intros x Hx; apply Hsub; right; exact Hx).
      assert (forall x, In x ls -> upd dec' a (f l) i (f x) = upd dec (fun x => a (f x)) l i x) as Q.
      { intros x Hx. unfold upd. destruct (dec' (f x) (f l)) as [E|E], (dec x l) as [E'|E']; auto; try congruence.
        exfalso. apply E'. apply Hi; auto. apply Hsub. left; reflexivity. }
      apply (esum_dep' dec dim r (netprod_dep net)). exact Q.
  Qed.
End Rename.

(** ** the loops *)
Section Loops.
  Context {R : csr}.
  Notation st := (@st R).
  Notation group := (nid * list nat * tensor R)%type.
  Implicit Types (s : st) (d : dict) (G : list group) (c : nat).

  Definition dv d c : eid := match dget d c with Some e => e | None => 0 end.
  Lemma dget_cons d c e c' : dget ((c, e) :: d) c' = if c =? c' then Some e else dget d c'.
  Proof. unfold dget. cbn [find fst snd]. destruct (c =? c'); reflexivity. Qed.
  Lemma dv_same d c e : dv ((c, e) :: d) c = e.
  Proof. unfold dv. rewrite dget_cons, Nat.eqb_refl. reflexivity. Qed.
  Lemma dv_other d c e c' : c' <> c -> dv ((c, e) :: d) c' = dv d c'.
  Proof. intros H. unfold dv. rewrite dget_cons. destruct (Nat.eqb_spec c c'); [congruence|reflexivity]. Qed.

  Definition letters G : list nat := flat_map (fun g => snd (fst g)) G.
  Definition hangs s (e : eid) : Prop := exists p, slot s p = Some e /\ s_edges s e = Some (Edge (fst p) (snd p) None false).

  (** the nodes of G are finished, the letters Q have been seen *)
  Record core (s0 s : st) d G (Q : list nat) : Prop := {
    co_w : wf s;
    co_nodes : forall m cs t, In (m, cs, t) G -> s_nodes s m = Some (Node t (map (dv d) cs) cs);
    co_keys : forall c, dget d c <> None <-> In c Q;
    co_inj : forall c c', In c Q -> In c' Q -> dv d c = dv d c' -> c = c';
    co_cnt : forall c, count_occ Nat.eq_dec Q c <= 2;
    co_one : forall c, count_occ Nat.eq_dec Q c = 1 -> hangs s (dv d c);
    co_two : forall c, count_occ Nat.eq_dec Q c = 2 -> exists ed, s_edges s (dv d c) = Some ed /\ e_2 ed <> None;
    co_old : forall m, s_nodes s0 m <> None -> s_nodes s m = s_nodes s0 m;
    co_ne : s_ne s0 <= s_ne s;
    co_nn : s_nn s0 <= s_nn s;
    co_ge : forall c, In c Q -> s_ne s0 <= dv d c;
    co_fresh : forall m cs t, In (m, cs, t) G -> s_nn s0 <= m;
    co_dist : NoDup (map (fun g => fst (fst g)) G)
  }.
  (** the node n, whose letters P have been seen and whose letters U have not *)
  Record cur (s0 s : st) d G (Q : list nat) n (t : tensor R) (P U : list nat) (xs : list eid) : Prop := {
    cu_node : s_nodes s n = Some (Node t (map (dv d) P ++ xs) (P ++ U));
    cu_len : length xs = length U;
    cu_nd : NoDup (P ++ U);
    cu_xs : NoDup xs;
    cu_hang : forall x, In x xs -> hangs s x;
    cu_out : forall c, In c Q -> ~ In (dv d c) xs;
    cu_ge : forall x, In x xs -> s_ne s0 <= x;
    cu_new : s_nn s0 <= n;
    cu_apart : ~ In n (map (fun g => fst (fst g)) G)
  }.

  (** a letter without two dimensions, not more than twice *)
  Definition fine G (n : nid) (t : tensor R) (all Q : list nat) : Prop :=
    (exists dim : nat -> nat, (forall m cs t, In (m, cs, t) G -> shape t = map dim cs) /\ shape t = map dim all) /\ (forall c, count_occ Nat.eq_dec Q c <= 2).

  Lemma nindex_mid P c U : ~ In c P -> nindex c (P ++ c :: U) = length P.
  Proof.
    induction P as [|p P IH]; intros H; cbn [app index_of length].
    - destruct (Nat.eq_dec c c); congruence.
    - destruct (Nat.eq_dec c p) as [->|Hne]; [exfalso; apply H; left; reflexivity|]. f_equal. apply IH. intros Z. apply H. right. exact Z.
  Qed.
  Lemma hangs_one s e p q : wf s -> hangs s e -> slot s p = Some e -> slot s q = Some e -> p = q.
  Proof. intros W (r & _ & E) H1 H2. rewrite (dangling_slot W H1 E eq_refl), (dangling_slot W H2 E eq_refl). reflexivity. Qed.

  Lemma in_letters G c : In c (letters G) -> exists m cs t k, In (m, cs, t) G /\ nth_error cs k = Some c.
  Proof.
    intros H. apply in_flat_map in H. destruct H as ([[m cs] t] & H1 & H2). cbn in H2. destruct (In_nth_error _ _ H2) as (k & E). exists m, cs, t, k. auto.
  Qed.

  Lemma count_snoc Q c c' : count_occ Nat.eq_dec (Q ++ [c]) c' = count_occ Nat.eq_dec Q c' + (if Nat.eq_dec c c' then 1 else 0).
  Proof. rewrite count_occ_app. cbn [count_occ]. destruct (Nat.eq_dec c c'); reflexivity. Qed.

  Lemma link_ok s0 G n t : wf s0 -> forall U P xs s d, core s0 s d G (letters G ++ P) -> cur s0 s d G (letters G ++ P) n t P U xs ->
    (exists s' d', link_letters n U d s = (s', Some d') /\ core s0 s' d' G (letters G ++ P ++ U) /\ cur s0 s' d' G (letters G ++ P ++ U) n t (P ++ U) [] []) \/
    (snd (link_letters n U d s) = None /\ ~ fine G n t (P ++ U) (letters G ++ P ++ U)).
  Proof.
    intros W0. induction U as [|c U IH]; intros P xs s d C K.
    { left. exists s, d. split; [reflexivity|]. rewrite app_nil_r. pose proof (cu_len K) as E. destruct xs; [|discriminate]. auto. }
    pose proof (cu_len K) as E. destruct xs as [|x xs]; [discriminate|]. cbn in E. injection E as E.
    set (Q := letters G ++ P) in *. pose proof (co_w C) as W.
    assert (~ In c P) as HcP by (intros Z; pose proof (cu_nd K) as ND; apply NoDup_remove_2 in ND; apply ND, in_or_app; left; exact Z).
    cbn [link_letters]. unfold axis_of_name, edge_of, bind, get_node. rewrite (cu_node K). cbn [n_names n_edges].
    assert (mem c (P ++ c :: U) = true) as -> by (apply mem_In, in_or_app; right; left; reflexivity).
    unfold ret. rewrite nindex_mid by exact HcP. rewrite (cu_node K). cbn [n_edges].
    assert (nth_error (map (dv d) P ++ x :: xs) (length P) = Some x) as Ex by (rewrite nth_error_app2 by (rewrite map_length; apply le_n); rewrite map_length, Nat.sub_diag; reflexivity).
    rewrite Ex.
    assert (slot s (n, length P) = Some x) as Sx by (unfold slot; cbn [fst snd]; rewrite (cu_node K); exact Ex).
    replace (P ++ c :: U) with ((P ++ [c]) ++ U) by (rewrite <- app_assoc; reflexivity).
    assert (letters G ++ P ++ [c] = Q ++ [c]) as HQ by (unfold Q; rewrite app_assoc; reflexivity).
    pose proof (cu_xs K) as NX. apply NoDup_cons_iff in NX. destruct NX as [Nx NX].
    destruct (dget d c) as [e0|] eqn:D.
    - assert (dv d c = e0) as Dv by (unfold dv; rewrite D; reflexivity).
      assert (In c Q) as HcQ by (apply (co_keys C); congruence).
      assert (In c (letters G)) as HcG by (unfold Q in HcQ; apply in_app_or in HcQ; tauto).
      destruct (in_letters HcG) as (m & cs & tm & k & Hg & Hk).
      assert (slot s (m, k) = Some e0) as S0.
      { unfold slot. cbn [fst snd]. rewrite (co_nodes C Hg). cbn [n_edges]. rewrite nth_error_map, Hk. cbn. congruence. }
      destruct (cu_hang K (or_introl eq_refl)) as (px & Sx' & Edx).
      assert (px = (n, length P)) as -> by (apply (hangs_one W (cu_hang K (or_introl eq_refl)) Sx' Sx)). cbn [fst snd] in Edx.
      assert (m <> n) as Hmn by (intros ->; apply (cu_apart K); apply in_map_iff; exists (n, cs, tm); auto).
      destruct (wf_slot W S0) as (ed0 & Ed0 & _).
      destruct (connect_total W S0 Sx Ed0 Edx) as [T1 T2]. cbn [e_2] in T1, T2.
      remember (connect e0 x s) as r eqn:Er. destruct r as [s1 [g|]].
      + destruct (T1 (ex_intro _ s1 (ex_intro _ g eq_refl))) as (Hd & _ & _ & Hdim).
        destruct (connect_inv W (ex_intro _ _ S0) (ex_intro _ _ Sx) (eq_sym Er)) as (p1 & p2 & CP).
        pose proof (connect_wf W CP) as W1.
        assert (forall c', count_occ Nat.eq_dec Q c' = 2 -> c' <> c) as Ntwo.
        { intros c' H2 ->. destruct (co_two C H2) as (ed & H3 & H4). rewrite Dv in H3. rewrite Ed0 in H3. injection H3 as <-. contradiction. }
        assert (count_occ Nat.eq_dec Q c = 1) as Hone.
        { pose proof (co_cnt C c). pose proof (proj1 (count_occ_In Nat.eq_dec Q c) HcQ). destruct (count_occ Nat.eq_dec Q c) as [|[|[|]]] eqn:Z; try lia. exfalso. apply (Ntwo c Z eq_refl). }
        assert (forall c', In c' Q -> ren2 e0 x g (dv d c') = dv ((c, g) :: d) c') as Ren.
        { intros c' Hc'. unfold ren2. destruct (Nat.eqb_spec (dv d c') e0) as [Z|Z].
          - rewrite <- Dv in Z. apply (co_inj C Hc' HcQ) in Z. subst c'. rewrite dv_same. reflexivity.
          - destruct (Nat.eqb_spec (dv d c') x) as [Z'|Z']; [exfalso; apply (cu_out K Hc'); left; congruence|]. cbn. rewrite dv_other; [reflexivity|congruence]. }
        assert (forall y, In y xs -> ren2 e0 x g y = y) as RenX.
        { intros y Hy. unfold ren2. destruct (Nat.eqb_spec y e0) as [->|]; [exfalso; apply (cu_out K HcQ); right; rewrite Dv; exact Hy|]. destruct (Nat.eqb_spec y x) as [->|]; [contradiction|reflexivity]. }
        assert (forall y, hangs s y -> y <> e0 -> y <> x -> hangs s1 y) as Hang.
        { intros y (p & Y1 & Y2) N1 N2. exists p. rewrite (cp_slot CP). pose proof (slot_lt W Y1) as [_ Y3].
          destruct (slot_eqb_spec p p1) as [->|]; [exfalso; pose proof (cp_p1 CP); congruence|]. destruct (slot_eqb_spec p p2) as [->|]; [exfalso; pose proof (cp_p2 CP); congruence|]. cbn.
          split; [exact Y1|]. rewrite (cp_edges CP); [exact Y2|]. rewrite (cp_e CP). lia. }
        assert (forall c', In c' Q -> dv d c' < s_ne s) as Lt.
        { intros c' Hc'. unfold Q in Hc'. apply in_app_or in Hc'. destruct Hc' as [Hc'|Hc'].
          - destruct (in_letters Hc') as (m' & cs' & t' & k' & Hg' & Hk'). apply (@slot_lt R _ s (m', k') (dv d c') W). unfold slot. cbn [fst snd]. rewrite (co_nodes C Hg'). cbn [n_edges]. rewrite nth_error_map, Hk'. reflexivity.
          - destruct (In_nth_error _ _ Hc') as (k' & Hk'). apply (@slot_lt R _ s (n, k') (dv d c') W). unfold slot. cbn [fst snd]. rewrite (cu_node K). cbn [n_edges].
            rewrite nth_error_app1 by (rewrite map_length; apply nth_error_Some; congruence). rewrite nth_error_map, Hk'. reflexivity. }
        assert (g = s_ne s) as Hg' by apply (cp_e CP).
        assert (s_ne s0 <= g) as Hge by (rewrite Hg'; apply (co_ne C)).
        assert (forall c', In c' (Q ++ [c]) -> In c' Q) as Back by (intros c' Hc'; apply in_app_or in Hc'; destruct Hc' as [|[<-|[]]]; assumption).
        rewrite !app_assoc. fold Q. rewrite <- HQ, <- !app_assoc. rewrite (app_assoc P).
        destruct (IH (P ++ [c]) xs s1 ((c, g) :: d)) as [(s' & d' & R1 & R2 & R3)|(R1 & R2)].
        * rewrite HQ. split.
          -- exact W1.
          -- intros m' cs' t' Hm'. rewrite (connect_nodes m' W CP), (co_nodes C Hm'). cbn [option_map n_t n_edges n_names]. rewrite map_map. do 2 f_equal. apply map_ext_in.
             intros c' Hc'. apply Ren. unfold Q. apply in_or_app. left. apply in_flat_map. exists (m', cs', t'). auto.
          -- intros c'. rewrite dget_cons. destruct (Nat.eqb_spec c c') as [<-|Hne]; [split; [intros _; apply in_or_app; right; left; reflexivity|discriminate]|].
             rewrite (co_keys C c'). split; [intros Z; apply in_or_app; left; exact Z|apply Back].
          -- intros c1 c2 H1 H2. apply Back in H1. apply Back in H2. destruct (Nat.eq_dec c1 c) as [->|N1], (Nat.eq_dec c2 c) as [->|N2]; auto; rewrite ?dv_same, ?dv_other by assumption.
             ++ intros Z. pose proof (Lt c2 H2). lia.
             ++ intros Z. pose proof (Lt c1 H1). lia.
             ++ apply (co_inj C H1 H2).
          -- intros c'. rewrite count_snoc. pose proof (co_cnt C c'). destruct (Nat.eq_dec c c') as [<-|]; lia.
          -- intros c'. rewrite count_snoc. destruct (Nat.eq_dec c c') as [<-|Hne]; [lia|]. intros Z. rewrite dv_other by congruence.
             assert (In c' Q) as Hc' by (apply (count_occ_In Nat.eq_dec); lia).
             apply Hang; [apply (co_one C); lia| |intros Z'; apply (cu_out K Hc'); left; congruence]. intros Z'. apply Hne. symmetry. apply (co_inj C Hc' HcQ). congruence.
          -- intros c'. rewrite count_snoc. destruct (Nat.eq_dec c c') as [<-|Hne]; intros Z.
             ++ rewrite dv_same. eexists. split; [apply (cp_edge CP)|]. discriminate.
             ++ rewrite dv_other by congruence. destruct (co_two C (c := c') ltac:(lia)) as (ed & H3 & H4). exists ed. split; [|exact H4]. rewrite (cp_edges CP); [exact H3|].
                assert (In c' Q) as Hc' by (apply (count_occ_In Nat.eq_dec); lia). pose proof (Lt c' Hc'). lia.
          -- intros m' Hm'. rewrite (connect_nodes m' W CP), (co_old C Hm'). destruct (s_nodes s0 m') as [nd|] eqn:En; [|congruence]. cbn [option_map]. destruct nd as [nt ne nn]. cbn [n_t n_edges n_names]. do 2 f_equal.
             rewrite <- (map_id ne) at 2. apply map_ext_in. intros y Hy. destruct (In_nth_error _ _ Hy) as (k' & Hk').
             assert (slot s0 (m', k') = Some y) as Sy by (unfold slot; cbn [fst snd]; rewrite En; exact Hk'). pose proof (slot_lt W0 Sy) as [_ Ly].
             unfold ren2. pose proof (co_ge C HcQ). pose proof (cu_ge K (or_introl eq_refl)). destruct (Nat.eqb_spec y e0); [lia|]. destruct (Nat.eqb_spec y x); [lia|reflexivity].
          -- rewrite (cp_ne CP). pose proof (co_ne C). lia.
          -- rewrite (cp_nn CP). apply (co_nn C).
          -- intros c' Hc'. apply Back in Hc'. destruct (Nat.eq_dec c' c) as [->|]; [rewrite dv_same; exact Hge|rewrite dv_other by assumption; apply (co_ge C Hc')].
          -- apply (co_fresh C).
          -- apply (co_dist C).
        * rewrite HQ. split.
          -- rewrite (connect_nodes n W CP), (cu_node K). cbn [option_map n_t n_edges n_names]. rewrite map_app. cbn [map]. rewrite !map_map, map_app, <- !app_assoc. cbn [app map]. do 2 f_equal.
             ++ f_equal; [apply map_ext_in; intros c' Hc'; apply Ren; unfold Q; apply in_or_app; right; exact Hc'|]. rewrite dv_same. f_equal.
                ** unfold ren2. rewrite (Nat.eqb_refl x), Bool.orb_true_r. reflexivity.
                ** rewrite <- (map_id xs) at 2. apply map_ext_in. exact RenX.
          -- exact E.
          -- rewrite <- app_assoc. exact (cu_nd K).
          -- exact NX.
          -- intros y Hy. apply Hang; [apply (cu_hang K); right; exact Hy| |intros ->; contradiction]. intros ->. apply (cu_out K HcQ). right. rewrite Dv. exact Hy.
          -- intros c' Hc'. apply Back in Hc'. destruct (Nat.eq_dec c' c) as [->|].
             ++ rewrite dv_same. intros Z. destruct (cu_hang K (or_intror Z)) as (p & Y1 & _). pose proof (slot_lt W Y1) as [_ Y3]. lia.
             ++ rewrite dv_other by assumption. intros Z. apply (cu_out K Hc'). right. exact Z.
          -- intros y Hy. apply (cu_ge K). right. exact Hy.
          -- apply (cu_new K).
          -- apply (cu_apart K).
        * left. exists s', d'. split; [exact R1|]. rewrite <- !app_assoc in *. cbn [app] in *. auto.
        * right. split; [exact R1|]. rewrite <- !app_assoc in *. cbn [app] in *. exact R2.
      + right. split; [reflexivity|]. intros ((dim & F1 & F2) & F3).
        assert (exists s' e, (s1, @None eid) = (s', Some e)) as (? & ? & Z); [|discriminate].
        apply T2. split; [|split; [reflexivity|split]].
        * assert (count_occ Nat.eq_dec Q c = 1) as Hone.
          { specialize (F3 c). rewrite app_assoc in F3. cbn [app] in F3. rewrite !count_occ_app in F3. cbn [count_occ] in F3. destruct (Nat.eq_dec c c); [|congruence].
            pose proof (proj1 (count_occ_In Nat.eq_dec Q c) HcQ). unfold Q in *. rewrite count_occ_app in *. lia. }
          destruct (co_one C Hone) as (p & Y1 & Y2). rewrite Dv, Ed0 in Y2. injection Y2 as ->. reflexivity.
        * intros Z. injection Z as Z _. contradiction.
        * unfold dimat. cbn [fst snd]. rewrite (co_nodes C Hg), (cu_node K). cbn [n_t]. rewrite (F1 _ _ _ Hg), F2. rewrite !nth_error_map, Hk, <- app_assoc. cbn [app].
          rewrite nth_error_app2 by apply le_n. rewrite Nat.sub_diag. reflexivity.
    - assert (~ In c Q) as HcQ by (intros Z; apply (co_keys C) in Z; congruence).
      assert (forall c', In c' Q -> dv ((c, x) :: d) c' = dv d c') as Ren by (intros c' Hc'; apply dv_other; congruence).
      assert (count_occ Nat.eq_dec Q c = 0) as H0 by (apply count_occ_not_In; exact HcQ).
      destruct (IH (P ++ [c]) xs s ((c, x) :: d)) as [(s' & d' & R1 & R2 & R3)|(R1 & R2)].
      + rewrite HQ. split.
        * exact W.
        * intros m' cs' t' Hm'. rewrite (co_nodes C Hm'). do 2 f_equal. apply map_ext_in. intros c' Hc'. symmetry. apply Ren. unfold Q. apply in_or_app. left. apply in_flat_map. exists (m', cs', t'). auto.
        * intros c'. rewrite dget_cons. destruct (Nat.eqb_spec c c') as [<-|Hne]; [split; [intros _; apply in_or_app; right; left; reflexivity|discriminate]|].
          rewrite (co_keys C c'). split; [intros Z; apply in_or_app; left; exact Z|]. intros Z. apply in_app_or in Z. destruct Z as [|[|[]]]; [assumption|congruence].
        * intros c1 c2 H1 H2. apply in_app_or in H1. apply in_app_or in H2. destruct H1 as [H1|[<-|[]]], H2 as [H2|[<-|[]]]; auto; rewrite ?dv_same, ?(Ren c1), ?(Ren c2) by assumption.
          -- apply (co_inj C H1 H2).
          -- intros Z. exfalso. apply (cu_out K H1). left. congruence.
          -- intros Z. exfalso. apply (cu_out K H2). left. congruence.
        * intros c'. rewrite count_snoc. pose proof (co_cnt C c'). destruct (Nat.eq_dec c c') as [<-|]; lia.
        * intros c'. rewrite count_snoc. destruct (Nat.eq_dec c c') as [<-|Hne]; intros Z.
          -- rewrite dv_same. apply (cu_hang K). left. reflexivity.
          -- rewrite dv_other by congruence. apply (co_one C). lia.
        * intros c'. rewrite count_snoc. destruct (Nat.eq_dec c c') as [<-|Hne]; intros Z; [lia|]. rewrite dv_other by congruence. apply (co_two C). lia.
        * apply (co_old C).
        * apply (co_ne C).
        * apply (co_nn C).
        * intros c' Hc'. apply in_app_or in Hc'. destruct Hc' as [Hc'|[<-|[]]]; [rewrite Ren by exact Hc'; apply (co_ge C Hc')|rewrite dv_same; apply (cu_ge K); left; reflexivity].
        * apply (co_fresh C).
        * apply (co_dist C).
      + rewrite HQ. split.
        * rewrite (cu_node K). rewrite map_app, <- !app_assoc. cbn [app map]. rewrite dv_same. do 3 f_equal. apply map_ext_in. intros c' Hc'. symmetry. apply Ren. unfold Q. apply in_or_app. right. exact Hc'.
        * exact E.
        * rewrite <- app_assoc. exact (cu_nd K).
        * exact NX.
        * intros y Hy. apply (cu_hang K). right. exact Hy.
        * intros c' Hc'. apply in_app_or in Hc'. destruct Hc' as [Hc'|[<-|[]]]; [rewrite Ren by exact Hc'; intros Z; apply (cu_out K Hc'); right; exact Z|rewrite dv_same; exact Nx].
        * intros y Hy. apply (cu_ge K). right. exact Hy.
        * apply (cu_new K).
        * apply (cu_apart K).
      + left. exists s', d'. split; [exact R1|]. rewrite <- !app_assoc in *. cbn [app] in *. auto.
      + right. split; [exact R1|]. rewrite <- !app_assoc in *. cbn [app] in *. exact R2.
  Qed.

  Lemma core_lt s0 s d G c : core s0 s d G (letters G) -> In c (letters G) -> dv d c < s_ne s.
  Proof.
    intros C Hc. destruct (in_letters Hc) as (m & cs & t & k & Hg & Hk). apply (@slot_lt R _ s (m, k) (dv d c) (co_w C)). unfold slot. cbn [fst snd]. rewrite (co_nodes C Hg). cbn [n_edges].
    rewrite nth_error_map, Hk. reflexivity.
  Qed.
  Lemma letters_snoc G n cs (t : tensor R) : letters (G ++ [(n, cs, t)]) = letters G ++ cs.
  Proof. unfold letters. rewrite flat_map_app. cbn. rewrite app_nil_r. reflexivity. Qed.

  Lemma core_dims s0 s d G Q m cs (t : tensor R) : core s0 s d G Q -> In (m, cs, t) G -> shape t = map (fun c => edim s (dv d c)) cs.
  Proof.
    intros C Hg. pose proof (co_w C) as W. pose proof (co_nodes C Hg) as E. pose proof (wf_rank W E) as Hr. cbn [n_edges n_t] in Hr. rewrite map_length in Hr.
    apply nth_error_ext. intros k. rewrite nth_error_map. destruct (nth_error cs k) as [c|] eqn:Ek.
    - assert (slot s (m, k) = Some (dv d c)) as S by (unfold slot; cbn [fst snd]; rewrite E; cbn [n_edges]; rewrite nth_error_map, Ek; reflexivity).
      pose proof (edim_dimat W S) as D. unfold dimat in D. cbn [fst snd] in D. rewrite E in D. exact D.
    - cbn. apply nth_error_None in Ek. apply nth_error_None. unfold rank in Hr. lia.
  Qed.
  Definition strip (g : group) : list nat * tensor R := (snd (fst g), snd g).
  Definition goodp G (parts : list (list nat * tensor R)) : Prop :=
    (exists dim : nat -> nat, (forall m cs t, In (m, cs, t) G -> shape t = map dim cs) /\ forall cs t, In (cs, t) parts -> shape t = map dim cs) /\
    (forall cs t, In (cs, t) parts -> NoDup cs) /\ (forall c, count_occ Nat.eq_dec (letters G ++ flat_map fst parts) c <= 2).

  Lemma nodes_ok s0 : wf s0 -> forall parts G s d, core s0 s d G (letters G) ->
    (exists s' d' G', make_nodes parts d (map (fun g => fst (fst g)) G) s = (s', Some (map (fun g => fst (fst g)) (G ++ G'))) /\ core s0 s' d' (G ++ G') (letters (G ++ G')) /\
      map strip G' = parts /\ forall cs t, In (cs, t) parts -> NoDup cs) \/
    (snd (make_nodes parts d (map (fun g => fst (fst g)) G) s) = None /\ ~ goodp G parts).
  Proof.
    intros W0. induction parts as [|[cs t] parts IH]; intros G s d C.
    { left. exists s, d, []. rewrite app_nil_r. split; [reflexivity|]. split; [exact C|]. split; [reflexivity|]. intros ? ? []. }
    assert (forall ns, make_nodes ((cs, t) :: parts) d ns s = if length cs =? rank t then
      match new_node t (Some cs) s with
      | (s1, Some n) => match link_letters n cs d s1 with (s2, Some d2) => make_nodes parts d2 (ns ++ [n]) s2 | (s2, None) => (s2, None) end
      | (s1, None) => (s1, None) end else (s, None)) as Run.
    { intros ns. cbn [make_nodes]. unfold bind, guard. destruct (length cs =? rank t); [|reflexivity]. unfold ret. destruct (new_node t (Some cs) s) as [s1 [n|]]; [|reflexivity]. destruct (link_letters n cs d s1) as [s2 [d2|]]; reflexivity. }
    rewrite Run. clear Run. destruct (Nat.eqb_spec (length cs) (rank t)) as [El|El].
    2: { right. split; [reflexivity|]. intros ((dim & _ & F) & _). apply El. unfold rank. rewrite (F cs t (or_introl eq_refl)), map_length. reflexivity. }
    destruct (nodupb cs) eqn:Nb.
    2: { right. split; [unfold new_node, guard, bind; rewrite Nb; reflexivity|]. intros (_ & F & _). rewrite (nodupb_true (F cs t (or_introl eq_refl))) in Nb. discriminate. }
    apply nodupb_spec in Nb.
    destruct (@new_node_succ R s t (Some cs) (conj Nb El)) as (s1 & n & H). rewrite H.
    pose proof (co_w C) as W. destruct (new_node_wf W H) as (W1 & Hl & Hn & Hnone & Hnn & (nms & _ & _ & Hnm & Hnd) & Hm & He & Hne). rewrite (Hnm cs eq_refl) in Hnd.
    assert (forall p x, slot s p = Some x -> fst p <> n) as Pn by (intros p x Hp Z; unfold slot in Hp; rewrite Z, Hnone in Hp; discriminate).
    assert (forall y, hangs s y -> hangs s1 y) as Hang.
    { intros y (p & Y1 & Y2). exists p. unfold slot. rewrite (Hm _ (Pn p y Y1)). split; [exact Y1|]. rewrite He by apply (slot_lt W Y1). exact Y2. }
    assert (forall x, In x (seq (s_ne s) (rank t)) -> exists k, slot s1 (n, k) = Some x) as Hin.
    { intros x Hx. apply in_seq in Hx. exists (x - s_ne s). unfold slot. cbn [fst snd]. rewrite Hnd. cbn [n_edges]. rewrite (nth_error_nth' _ 0) by (rewrite seq_length; lia). rewrite seq_nth by lia. f_equal. lia. }
    destruct (@link_ok s0 G n t W0 cs [] (seq (s_ne s) (rank t)) s1 d) as [(s2 & d2 & E2 & C2 & K2)|(E2 & F2)].
    - rewrite app_nil_r. split.
      + exact W1.
      + intros m cs' t' Hg. rewrite Hm; [apply (co_nodes C Hg)|]. intros ->. pose proof (co_nodes C Hg). congruence.
      + apply (co_keys C).
      + apply (co_inj C).
      + apply (co_cnt C).
      + intros c Hc. apply Hang, (co_one C Hc).
      + intros c Hc. destruct (co_two C Hc) as (ed & Q1 & Q2). exists ed. split; [|exact Q2]. rewrite He; [exact Q1|]. apply (core_lt C). apply (count_occ_In Nat.eq_dec). lia.
      + intros m Hm'. rewrite Hm; [apply (co_old C Hm')|]. intros ->. pose proof (co_old C Hm'). congruence.
      + pose proof (co_ne C). lia.
      + pose proof (co_nn C). lia.
      + apply (co_ge C).
      + apply (co_fresh C).
      + apply (co_dist C).
    - rewrite app_nil_r. split.
      + cbn [map app]. exact Hnd.
      + rewrite seq_length. congruence.
      + exact Nb.
      + apply seq_NoDup.
      + intros x Hx. destruct (Hin x Hx) as (k & Q). exists (n, k). split; [exact Q|]. apply (Hl _ _ Q).
      + intros c Hc Z. apply in_seq in Z. pose proof (core_lt C Hc). lia.
      + intros x Hx. apply in_seq in Hx. pose proof (co_ne C). lia.
      + pose proof (co_nn C). lia.
      + intros Z. apply in_map_iff in Z. destruct Z as ([[m cs'] t'] & Z1 & Z2). cbn in Z1. subst m. pose proof (co_nodes C Z2). congruence.
    - rewrite E2. cbn [app] in C2, K2.
      assert (map (fun g : group => fst (fst g)) G ++ [n] = map (fun g : group => fst (fst g)) (G ++ [(n, cs, t)])) as -> by (rewrite map_app; reflexivity).
      destruct (IH (G ++ [(n, cs, t)]) s2 d2) as [(s' & d' & G' & R1 & R2 & R3 & R4)|(R1 & R2)].
      + rewrite letters_snoc. split.
        * apply (co_w C2).
        * intros m cs' t' Hg. apply in_app_or in Hg. destruct Hg as [Hg|[Hg|[]]]; [apply (co_nodes C2 Hg)|]. injection Hg as <- <- <-. pose proof (cu_node K2) as Q. rewrite !app_nil_r in Q. exact Q.
        * apply (co_keys C2).
        * apply (co_inj C2).
        * apply (co_cnt C2).
        * apply (co_one C2).
        * apply (co_two C2).
        * apply (co_old C2).
        * apply (co_ne C2).
        * apply (co_nn C2).
        * apply (co_ge C2).
        * intros m cs' t' Hg. apply in_app_or in Hg. destruct Hg as [Hg|[Hg|[]]]; [apply (co_fresh C2 Hg)|]. injection Hg as <- <- <-. apply (cu_new K2).
        * rewrite map_app. cbn [map fst]. apply (Permutation_NoDup (Permutation_cons_append _ _)). constructor; [apply (cu_apart K2)|apply (co_dist C2)].
      + left. exists s', d', ((n, cs, t) :: G'). rewrite <- !app_assoc in *. cbn [app] in *. split; [exact R1|]. split; [exact R2|]. split; [cbn [map strip fst snd]; rewrite R3; reflexivity|].
        intros cs' t' [Z|Z]; [injection Z as <- <-; exact Nb|apply (R4 _ _ Z)].
      + right. split; [exact R1|]. intros ((dim & F1 & F3) & F4 & F5). apply R2. split; [|split].
        * exists dim. split; [|intros cs' t' Z; apply F3; right; exact Z]. intros m cs' t' Z. apply in_app_or in Z. destruct Z as [Z|[Z|[]]]; [apply (F1 _ _ _ Z)|]. injection Z as <- <- <-. apply F3. left; reflexivity.
        * intros cs' t' Z. apply (F4 cs' t'). right. exact Z.
        * intros c. rewrite letters_snoc, <- app_assoc. apply F5.
    - right. destruct (link_letters n cs d s1) as [s2 [?|]]; [discriminate|]. split; [reflexivity|]. intros ((dim & F1 & F3) & F4 & F5). apply F2. cbn [app]. split.
      + exists dim. split; [exact F1|apply F3; left; reflexivity].
      + intros c. specialize (F5 c). cbn [flat_map fst] in F5. rewrite !count_occ_app in *. lia.
  Qed.

  Lemma core_start s0 : wf s0 -> core s0 s0 [] [] [].
  Proof.
    intros W. split; auto; try (intros; contradiction); try (cbn; intros; lia).
    - intros c. split; [intros Z; exfalso; apply Z; reflexivity|intros []].
    - constructor.
  Qed.

  Lemma good_goodp parts (ts : list (tensor R)) : length parts = length ts -> good_topology parts ts <-> goodp [] (combine parts ts).
  Proof.
    intros El. unfold good_topology, goodp. cbn [letters flat_map app].
    assert (flat_map fst (combine parts ts) = concat parts) as ->.
    { clear - El. revert ts El. induction parts as [|p ps IH]; intros [|t ts] El; try discriminate; [reflexivity|]. cbn [combine flat_map concat fst]. rewrite IH by (cbn in El; lia). reflexivity. }
    assert (forall dim : nat -> nat, Forall2 (fun cs t => shape t = map dim cs) parts ts <-> forall cs t, In (cs, t) (combine parts ts) -> shape t = map dim cs) as Hd.
    { intros dim. clear - El. revert ts El. induction parts as [|p ps IH]; intros [|t ts] El; try discriminate; [split; [intros _ ? ? []|constructor]|]. cbn in El. injection El as El. cbn [combine]. split.
      - intros F. inversion F; subst. intros cs t' [Z|Z]; [injection Z as <- <-; assumption|]. apply (proj1 (IH ts El)); assumption.
      - intros F. constructor; [apply F; left; reflexivity|]. apply (IH ts El). intros cs t' Z. apply F. right. exact Z. }
    assert ((forall cs, In cs parts -> NoDup cs) <-> forall cs (t : tensor R), In (cs, t) (combine parts ts) -> NoDup cs) as Hn.
    { clear - El. revert ts El. induction parts as [|p ps IH]; intros [|t ts] El; try discriminate; [split; [intros _ ? ? []|intros _ ? []]|]. cbn in El. injection El as El. cbn [combine]. split.
      - intros F cs t' [Z|Z]; [injection Z as <- <-; apply F; left; reflexivity|]. apply (proj1 (IH ts El)) with t'; [|exact Z]. intros c Hc. apply F. right. exact Hc.
      - intros F cs [<-|Z]; [apply (F _ t); left; reflexivity|]. apply (proj2 (IH ts El)); [|exact Z]. intros c t' Hc. apply (F c t'). right. exact Hc. }
    split.
    - intros (_ & (dim & F1) & F2 & F3). split; [exists dim; split; [intros ? ? ? []|apply Hd, F1]|]. split; [apply Hn, F2|exact F3].
    - intros ((dim & _ & F1) & F2 & F3). split; [exact El|]. split; [exists dim; apply Hd, F1|]. split; [apply Hn, F2|exact F3].
  Qed.

  Theorem topology_ok (s : st) parts (ts : list (tensor R)) : wf s -> parts <> [] -> (forall cs, In cs parts -> ~ In 44 cs) ->
    (good_topology parts ts -> exists s' ns D, from_topology (commas parts) ts s = (s', Some ns) /\ wf s' /\ NoDup ns /\ length ns = length ts /\
      (forall m, In m ns -> s_nodes s m = None) /\ (forall m, s_nodes s m <> None -> s_nodes s' m = s_nodes s m) /\
      (forall i cs t, nth_error parts i = Some cs -> nth_error ts i = Some t -> exists m, nth_error ns i = Some m /\ s_nodes s' m = Some (Node t (map D cs) cs)) /\
      (forall c c', In c (concat parts) -> In c' (concat parts) -> D c = D c' -> c = c') /\
      (forall c, In c (concat parts) -> exists ed, s_edges s' (D c) = Some ed /\ (e_2 ed = None <-> count_occ Nat.eq_dec (concat parts) c = 1)) /\
      forall dim a, Forall2 (fun cs t => shape t = map dim cs) parts ts -> netval s' ns a = value Nat.eq_dec dim (combine ts parts) (fun c => a (D c))) /\
    (~ good_topology parts ts -> snd (from_topology (commas parts) ts s) = None).
  Proof.
    intros W Hne Hc. unfold from_topology. rewrite (split_commas_ok Hne Hc). unfold bind, guard.
    destruct (Nat.eqb_spec (length parts) (length ts)) as [El|El].
    2: { split; [intros (F & _); contradiction|reflexivity]. }
    rewrite (good_goodp El). cbn [ret].
    destruct (@nodes_ok s W (combine parts ts) [] s [] (core_start W)) as [(s' & d' & G & R1 & C & R3 & R4)|(R1 & R2)]; cbn [app map] in *.
    2: { split; [intros F; contradiction|intros _; exact R1]. }
    assert (length G = length ts) as Lg by (rewrite <- (map_length strip), R3, combine_length; lia).
    assert (letters G = concat parts) as Hl.
    { clear - R3 El. unfold letters. revert parts ts R3 El. induction G as [|[[m cs] t0] G IH]; intros [|p ps] [|t ts] R3 El; try discriminate; [reflexivity|]. cbn [map combine strip fst snd] in R3. injection R3 as Z1 Z2 Z3. cbn [flat_map concat fst snd].
      rewrite (IH ps ts Z3) by (cbn in El; lia). congruence. }
    assert (forall i cs t, nth_error parts i = Some cs -> nth_error ts i = Some t -> exists m, nth_error G i = Some (m, cs, t)) as Hnth.
    { clear - R3. revert parts ts R3. induction G as [|g G IH]; intros parts ts R3 i cs t H1 H2.
      - destruct parts as [|p ps]; [destruct i; discriminate|]. destruct ts as [|t0 ts]; [destruct i; discriminate|]. discriminate.
      - destruct parts as [|p ps]; [destruct i; discriminate|]. destruct ts as [|t0 ts]; [destruct i; discriminate|]. destruct g as [[m cs0] t1]. cbn [map combine strip fst snd] in R3. injection R3 as Z1 Z2 Z3. subst cs0 t1. destruct i as [|i]; cbn in *.
        + injection H1 as <-. injection H2 as <-. eauto.
        + apply (IH ps ts Z3 i cs t H1 H2). }
    rewrite Hl in C.
    split.
    2: { intros F. exfalso. apply F. apply (good_goodp El). split; [exact El|]. split; [|split].
      - exists (fun c => edim s' (dv d' c)).
        assert (forall m cs t, In (m, cs, t) G -> shape t = map (fun c => edim s' (dv d' c)) cs) as Q by (intros m cs t Hg; exact (core_dims C Hg)).
        clear - Q R3 El. revert parts ts R3 El. induction G as [|[[m cs] t] G IH]; intros [|p ps] [|t0 ts] R3 El; try discriminate; constructor; cbn [map combine strip fst snd] in R3; injection R3 as Z1 Z2 Z3; subst.
        + apply (Q m). left. reflexivity.
        + apply IH; [intros m' cs' t' Z; apply (Q m'); right; exact Z|assumption|cbn in El; lia].
      - intros cs Hcs. destruct (In_nth_error _ _ Hcs) as (i & Hi). destruct (nth_error ts i) as [t|] eqn:Et.
        + apply (R4 cs t). destruct (Hnth i cs t Hi Et) as (m & Hm). rewrite <- R3. apply in_map_iff. exists (m, cs, t). split; [reflexivity|apply (nth_error_In _ _ Hm)].
        + exfalso. apply nth_error_None in Et. assert (i < length parts) by (apply nth_error_Some; congruence). lia.
      - apply (co_cnt C). }
    intros F. exists s', (map (fun g => fst (fst g)) G), (dv d'). split; [exact R1|]. split; [apply (co_w C)|]. split; [apply (co_dist C)|]. split; [rewrite map_length; exact Lg|].
    split.
    { intros m Hm. apply in_map_iff in Hm. destruct Hm as ([[m' cs] t] & Hm & Hg). cbn in Hm. subst m'. pose proof (co_fresh C Hg) as Hf.
      destruct (s_nodes s m) eqn:E; [|reflexivity]. pose proof (wf_nn W E). lia. }
    split; [apply (co_old C)|].
    split.
    { intros i cs t H1 H2. destruct (Hnth i cs t H1 H2) as (m & Hm). exists m. split; [rewrite nth_error_map, Hm; reflexivity|]. apply (co_nodes C (nth_error_In _ _ Hm)). }
    split; [apply (co_inj C)|].
    split.
    { intros c Hin. pose proof (co_cnt C c) as Q1. pose proof (proj1 (count_occ_In Nat.eq_dec _ c) Hin) as Q2.
      assert (count_occ Nat.eq_dec (concat parts) c = 1 \/ count_occ Nat.eq_dec (concat parts) c = 2) as [Q|Q] by lia.
      - destruct (co_one C Q) as (p & _ & E). eexists. split; [exact E|]. cbn. tauto.
      - destruct (co_two C Q) as (ed & E & N). exists ed. split; [exact E|]. split; [tauto|lia]. }
    intros dim a Fd.
    assert (net_of s' (map (fun g => fst (fst g)) G) = map (fun x : factor nat R => (fst x, map (dv d') (snd x))) (combine ts parts)) as Hnet.
    { assert (forall m cs t, In (m, cs, t) G -> fac s' m = (t, map (dv d') cs)) as Q by (intros m cs t Hg; unfold fac; rewrite (co_nodes C Hg); reflexivity).
      clear - Q R3 El. unfold net_of. revert parts ts R3 El. induction G as [|[[m cs] t] G IH]; intros [|p ps] [|t0 ts] R3 El; try discriminate; [reflexivity|]. cbn [map combine strip fst snd] in *. injection R3 as Z1 Z2 Z3; subst. f_equal.
      - apply Q. left. reflexivity.
      - apply IH; [intros m' cs' t' Z; apply Q; right; exact Z|assumption|cbn in El; lia]. }
    assert (net_labels (combine ts parts) = concat parts) as Hlab.
    { clear - El. unfold net_labels. revert ts El. induction parts as [|p ps IH]; intros [|t ts] El; try discriminate; [reflexivity|]. cbn [combine flat_map concat snd]. rewrite IH by (cbn in El; lia). reflexivity. }
    unfold netval. rewrite Hnet. apply value_relabel; rewrite Hlab; [apply (co_inj C)|].
    intros c Hin. rewrite <- Hl in Hin. destruct (in_letters Hin) as (m & cs & t & k & Hg & Hk).
    pose proof (core_dims C Hg) as Q.
    assert (shape t = map dim cs) as Q'.
    { assert (In (cs, t) (combine parts ts)) as Hin' by (rewrite <- R3; apply in_map_iff; exists (m, cs, t); auto).
      clear - Fd Hin'. induction Fd as [|x y l l' H F IH]; [destruct Hin'|]. destruct Hin' as [Z|Z]; [injection Z as <- <-; exact H|apply IH, Z]. }
    assert (nth_error (map (fun c => edim s' (dv d' c)) cs) k = nth_error (map dim cs) k) as Z by congruence. rewrite !nth_error_map, Hk in Z. cbn in Z. congruence.
  Qed.
End Loops.
