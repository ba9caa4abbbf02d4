(** * ContextFacts: the stacks implement lexical scoping *)
From Verif Require Import Prelude Context ContextSpec.
From Coq Require Import String.
Set Implicit Arguments.
Unset Strict Implicit.

Definition grows (i j : list (string * nat)) : Prop := forall s o, lookup s i = Some o -> lookup s j = Some o.
Lemma grows_refl i : grows i i. Proof. intros s o H; exact H. Qed.
Lemma grows_trans i j l : grows i j -> grows j l -> grows i l.
Proof. intros A B s o H; apply B, A, H. Qed.
Lemma stands_grows i j o w : grows i j -> stands_for i o w -> stands_for j o w.
Proof. intros G; destruct w; simpl; auto. intros [A B]; auto. Qed.
Lemma stands_grows_all i j os ws : grows i j -> Forall2 (stands_for i) os ws -> Forall2 (stands_for j) os ws.
Proof. intros G; induction 1; constructor; eauto using stands_grows. Qed.

(** same state but for the instances *)
Record same_but (k k' : ctx) : Prop := {
  sb_bs : k_bs k' = k_bs k; sb_db : k_db k' = k_db k; sb_cs : k_cs k' = k_cs k; sb_cont : k_cont k' = k_cont k;
  sb_nodes : k_nodes k' = k_nodes k; sb_log : k_log k' = k_log k; sb_inst : grows (k_inst k) (k_inst k') }.
Lemma same_but_refl k : same_but k k.
Proof. constructor; try reflexivity. apply grows_refl. Qed.
Lemma same_but_trans a b c : same_but a b -> same_but b c -> same_but a c.
Proof. intros [] []; constructor; try congruence. eapply grows_trans; eauto. Qed.

Lemma get_backend_spec b k k' r : get_backend b k = (k', r) ->
  same_but k k' /\
  match r with Some o => usable b = true /\ stands_for (k_inst k') o b | None => usable b = false end.
Proof.
  unfold get_backend. destruct b as [s | o | ].
  - simpl. destruct (known s) eqn:E; [|intros [= <- <-]; split; [apply same_but_refl | reflexivity]].
    destruct (lookup s (k_inst k)) eqn:L; intros [= <- <-].
    + split; [apply same_but_refl|]. split; [reflexivity | split; [reflexivity | exact L]].
    + split.
      * constructor; try reflexivity. simpl. intros x o H. simpl. destruct (String.eqb_spec x s) as [->|]; [congruence | exact H].
      * split; [reflexivity|]. split; [reflexivity|]. simpl. rewrite String.eqb_refl. reflexivity.
  - intros [= <- <-]. split; [apply same_but_refl|]. split; reflexivity.
  - intros [= <- <-]. split; [apply same_but_refl | reflexivity].
Qed.

(** what holds of [exec] *)
Record follows (k k' : ctx) (ws : list barg) (db : barg) (es : list ev) : Prop := {
  fo_bs : k_bs k' = k_bs k;
  fo_cs : k_cs k' = k_cs k;
  fo_db : k_db k' = db;
  fo_log : k_log k' = k_log k ++ saws es;
  fo_cont : forall x, k_cont k' x = k_cont k x ++ in_coll x (List.length (k_nodes k)) es;
  fo_nodes : Forall2 (stands_for (k_inst k')) (k_nodes k') (ws ++ whos es);
  fo_inst : grows (k_inst k) (k_inst k') }.

Lemma saws_app a b : saws (a ++ b) = saws a ++ saws b.
Proof. apply flat_map_app. Qed.
Lemma whos_app a b : whos (a ++ b) = whos a ++ whos b.
Proof. apply flat_map_app. Qed.
Lemma in_coll_app x a b n : in_coll x n (a ++ b) = in_coll x n a ++ in_coll x (n + List.length (whos a)) b.
Proof.
  revert n; induction a as [|[w [c|] | d c] r IH]; intros n; simpl.
  - rewrite Nat.add_0_r. reflexivity.
  - destruct (Nat.eqb c x); simpl; rewrite IH, Nat.add_succ_r; reflexivity.
  - rewrite IH, Nat.add_succ_r; reflexivity.
  - rewrite IH. reflexivity.
Qed.

Lemma follows_same k k' ws : same_but k k' -> Forall2 (stands_for (k_inst k)) (k_nodes k) ws -> follows k k' ws (k_db k) [].
Proof.
  intros [] H; constructor; try assumption; simpl.
  - rewrite app_nil_r; assumption.
  - intros x. rewrite sb_cont0, app_nil_r. reflexivity.
  - rewrite app_nil_r, sb_nodes0. eapply stands_grows_all; eauto.
Qed.
Lemma Forall2_len {A B} (P : A -> B -> Prop) l l' : Forall2 P l l' -> List.length l = List.length l'.
Proof. induction 1; simpl; congruence. Qed.
Lemma follows_trans k k1 k2 ws db1 db2 e1 e2 : Forall2 (stands_for (k_inst k)) (k_nodes k) ws ->
  follows k k1 ws db1 e1 -> follows k1 k2 (ws ++ whos e1) db2 e2 -> follows k k2 ws db2 (e1 ++ e2).
Proof.
  intros H0 [] []; constructor; try congruence.
  - rewrite fo_log1, fo_log0, saws_app, app_assoc; reflexivity.
  - intros x. rewrite fo_cont1, fo_cont0, in_coll_app, <- app_assoc. do 3 f_equal.
    rewrite (Forall2_len H0), (Forall2_len fo_nodes0), app_length. reflexivity.
  - rewrite whos_app, app_assoc. exact fo_nodes1.
  - eapply grows_trans; eauto.
Qed.

Lemma finish_follows o w k ws : Forall2 (stands_for (k_inst k)) (k_nodes k) ws -> stands_for (k_inst k) o w ->
  follows k (finish_node o k) ws (k_db k) [Made w (hd_error (k_cs k))].
Proof.
  intros H Ho. unfold finish_node, get_current_collection.
  assert (F : Forall2 (stands_for (k_inst k)) (k_nodes k ++ [o]) (ws ++ [w]))
    by (apply Forall2_app; [exact H | constructor; [exact Ho | constructor]]).
  destruct (hd_error (k_cs k)) as [c|]; constructor; simpl; try reflexivity; try (rewrite app_nil_r; reflexivity);
    try exact F; try apply grows_refl.
  - intros x. rewrite (Nat.eqb_sym c x). destruct (Nat.eqb x c); [reflexivity | rewrite app_nil_r; reflexivity].
  - intros x. rewrite app_nil_r; reflexivity.
Qed.

(** resolving a backend and then making a node *)
Lemma make_follows b (bad : bool) k k1 r ws :
  Forall2 (stands_for (k_inst k)) (k_nodes k) ws -> get_backend b k = (k1, r) ->
  forall k2 ok, (match r with None => (k1, false) | Some o => if bad then (k1, false) else (finish_node o k1, true) end) = (k2, ok) ->
  forall db es ok', make b bad (hd_error (k_cs k)) (k_db k) = (db, es, ok') -> ok = ok' /\ follows k k2 ws db es.
Proof.
  intros H G k2 ok E db es ok' Es. destruct (get_backend_spec G) as [SB Hr]. unfold make in Es.
  destruct r as [o|].
  - destruct Hr as [U St]. rewrite U in Es. destruct bad; simpl in Es; injection E as <- <-; injection Es as <- <- <-.
    + split; [reflexivity | apply follows_same; assumption].
    + split; [reflexivity|].
      change [Made b (hd_error (k_cs k))] with ([] ++ [Made b (hd_error (k_cs k))]).
      eapply follows_trans; [exact H | apply follows_same; eassumption |].
      simpl. rewrite app_nil_r. rewrite <- (sb_cs SB), <- (sb_db SB).
      apply finish_follows; [|exact St]. rewrite (sb_nodes SB). eapply stands_grows_all; [apply (sb_inst SB) | exact H].
  - rewrite Hr in Es. simpl in Es. injection E as <- <-. injection Es as <- <- <-.
    split; [reflexivity | apply follows_same; assumption].
Qed.

Lemma default_cur k : get_default_backend k = cur (hd_error (k_bs k)) (k_db k).
Proof. unfold get_default_backend. destruct (k_bs k); reflexivity. Qed.

Lemma Forall2_nth {A B} (P : A -> B -> Prop) l l' n : Forall2 P l l' ->
  match nth_error l n, nth_error l' n with Some x, Some y => P x y | None, None => True | _, _ => False end.
Proof. intros H; revert n; induction H as [|x y l l1 Hx Hl IH]; intros [|n]; simpl; auto. apply IH. Qed.

Lemma create_follows src bk bad k ws k2 ok db es ok' :
  Forall2 (stands_for (k_inst k)) (k_nodes k) ws ->
  create src bk bad k = (k2, ok) ->
  lex (hd_error (k_bs k)) (hd_error (k_cs k)) (Create src bk bad) (k_db k) ws = (db, es, ok') ->
  ok = ok' /\ follows k k2 ws db es.
Proof.
  intros H E Es. unfold create in E. simpl in Es. rewrite <- default_cur in Es.
  assert (D : forall b', match b' with Some b => b | None => get_default_backend k end = cur b' (get_default_backend k)) by (intros []; reflexivity).
  destruct src as [n|].
  2:{ rewrite D in E. destruct (get_backend _ k) as [k1 r] eqn:G. eapply make_follows; eauto. }
  pose proof (Forall2_nth n H) as Hn.
  destruct (nth_error (k_nodes k) n) as [o|], (nth_error ws n) as [w|]; try contradiction.
  2:{ rewrite D in E. destruct (get_backend _ k) as [k1 r] eqn:G. eapply make_follows; eauto. }
  simpl in E. destruct w as [s | o' | ]; simpl in Hn; [| |contradiction].
  - (* the node's backend came from a name *)
    destruct Hn as [Kn L]. unfold make in Es. simpl in Es. rewrite Kn in Es.
    destruct bad; simpl in Es; injection E as <- <-; injection Es as <- <- <-; (split; [reflexivity|]).
    + apply follows_same; [apply same_but_refl | exact H].
    + apply finish_follows; [exact H | split; assumption].
  - subst o'. apply (make_follows (b := Obj o) (k1 := k) (r := Some o) H eq_refl E Es).
Qed.

Lemma init_node_follows bk bad k ws k2 ok db es ok' :
  Forall2 (stands_for (k_inst k)) (k_nodes k) ws ->
  initialize_node bk bad k = (k2, ok) ->
  lex (hd_error (k_bs k)) (hd_error (k_cs k)) (InitNode bk bad) (k_db k) ws = (db, es, ok') ->
  ok = ok' /\ follows k k2 ws db es.
Proof.
  intros H E Es. unfold initialize_node in E. simpl in Es. rewrite <- default_cur in Es.
  destruct bk as [b|].
  - destruct (get_backend b k) as [k1 r] eqn:G. destruct (get_backend_spec G) as [SB Hr].
    destruct r as [o|].
    + destruct bad.
      * exact (make_follows (bad := true) H G E Es).
      * unfold create in E. simpl in E.
        assert (G2 : get_backend b k1 = (k1, Some o)).
        { revert G. destruct Hr as [U St]. clear E Es. destruct b as [s | o' | ]; simpl in *; try discriminate.
          - destruct St as [Kn L]. rewrite Kn, L. reflexivity.
          - intros [= <- <-]. reflexivity. }
        rewrite G2 in E. exact (make_follows (bad := false) H G E Es).
    + exact (make_follows H G E Es).
  - destruct (get_default_backend k) as [s | o | ] eqn:D.
    + injection E as <- <-. injection Es as <- <- <-. split; [reflexivity | apply follows_same; [apply same_but_refl | exact H]].
    + assert (G : get_backend (Obj o) k = (k, Some o)) by reflexivity.
      destruct bad; [exact (make_follows (bad := true) H G E Es)|]. unfold create in E. rewrite D in E. simpl in E.
      exact (make_follows (bad := false) H G E Es).
    + injection E as <- <-. injection Es as <- <- <-. split; [reflexivity | apply follows_same; [apply same_but_refl | exact H]].
Qed.

Lemma init_tensor_follows bk bad k ws k2 ok :
  Forall2 (stands_for (k_inst k)) (k_nodes k) ws ->
  initialize_tensor bk bad k = (k2, ok) ->
  ok = usable (cur bk (cur (hd_error (k_bs k)) (k_db k))) && negb bad /\ follows k k2 ws (k_db k) [].
Proof.
  intros H E. unfold initialize_tensor in E. rewrite <- default_cur.
  replace (match bk with Some b => b | None => get_default_backend k end) with (cur bk (get_default_backend k)) in E by (destruct bk; reflexivity).
  destruct (get_backend (cur bk (get_default_backend k)) k) as [k1 r] eqn:G. destruct (get_backend_spec G) as [SB Hr].
  destruct r as [o|].
  - destruct Hr as [U St]. rewrite U. destruct bad.
    + injection E as <- <-. split; [reflexivity | apply follows_same; assumption].
    + destruct (get_backend _ k1) as [k3 r3] eqn:G3. destruct (get_backend_spec G3) as [SB3 H3].
      injection E as <- <-. split.
      * destruct r3; [reflexivity | congruence].
      * apply follows_same; [eapply same_but_trans; eauto | exact H].
  - rewrite Hr. injection E as <- <-. split; [reflexivity | apply follows_same; assumption].
Qed.

Lemma follows_nodes k k' ws db es : follows k k' ws db es -> Forall2 (stands_for (k_inst k')) (k_nodes k') (ws ++ whos es).
Proof. intros []; assumption. Qed.

Theorem exec_follows p : forall k ws k' ok db es ok',
  Forall2 (stands_for (k_inst k)) (k_nodes k) ws ->
  exec p k = (k', ok) ->
  lex (hd_error (k_bs k)) (hd_error (k_cs k)) p (k_db k) ws = (db, es, ok') ->
  ok = ok' /\ follows k k' ws db es.
Proof.
  induction p as [|p IHp q IHq| |p IHp q IHq| |b|src bk bad|bk bad|bk bad|b p IHp|c p IHp]; intros k ws k' ok db es ok' H E Es.
  - simpl in *. injection E as <- <-. injection Es as <- <- <-. split; [reflexivity | apply follows_same; [apply same_but_refl | exact H]].
  - simpl in E, Es. destruct (exec p k) as [k1 ok1] eqn:E1. destruct (lex _ _ p _ _) as [[db1 e1] o1] eqn:L1.
    destruct (IHp _ _ _ _ _ _ _ H E1 L1) as [-> F1].
    destruct o1.
    + destruct (lex _ _ q _ _) as [[db2 e2] o2] eqn:L2. injection Es as <- <- <-.
      rewrite <- (fo_bs F1), <- (fo_cs F1), <- (fo_db F1) in L2.
      destruct (IHq _ _ _ _ _ _ _ (follows_nodes F1) E L2) as [-> F2].
      split; [reflexivity | eapply follows_trans; eauto].
    + injection E as <- <-. injection Es as <- <- <-. split; [reflexivity | exact F1].
  - simpl in *. injection E as <- <-. injection Es as <- <- <-. split; [reflexivity | apply follows_same; [apply same_but_refl | exact H]].
  - simpl in E, Es. destruct (exec p k) as [k1 ok1] eqn:E1. destruct (lex _ _ p _ _) as [[db1 e1] o1] eqn:L1.
    destruct (IHp _ _ _ _ _ _ _ H E1 L1) as [-> F1].
    destruct o1.
    + injection E as <- <-. injection Es as <- <- <-. split; [reflexivity | exact F1].
    + destruct (lex _ _ q _ _) as [[db2 e2] o2] eqn:L2. injection Es as <- <- <-.
      rewrite <- (fo_bs F1), <- (fo_cs F1), <- (fo_db F1) in L2.
      destruct (IHq _ _ _ _ _ _ _ (follows_nodes F1) E L2) as [-> F2].
      split; [reflexivity | eapply follows_trans; eauto].
  - simpl in E, Es. rewrite default_cur in E. unfold get_current_collection in E.
    injection E as <- <-. injection Es as <- <- <-. split; [reflexivity|].
    constructor; simpl; try reflexivity; try (intros; rewrite app_nil_r; auto); try apply grows_refl.
  - simpl in E, Es. unfold set_default_backend in E. destruct (k_bs k) as [|x r] eqn:B; simpl in Es.
    + assert (Z : (k, false) = (k', ok) -> (k_db k, [], false) = (db, es, ok') -> ok = ok' /\ follows k k' ws db es).
      { intros E1 E2. injection E1 as <- <-. injection E2 as <- <- <-.
        split; [reflexivity | apply follows_same; [apply same_but_refl | exact H]]. }
      assert (Y : (set_db b k, true) = (k', ok) -> (b, [], true) = (db, es, ok') -> ok = ok' /\ follows k k' ws db es).
      { intros E1 E2. injection E1 as <- <-. injection E2 as <- <- <-. split; [reflexivity|].
        constructor; simpl; try reflexivity; try (intros; rewrite app_nil_r; auto); try apply grows_refl. }
      destruct b as [s | o | ]; simpl in Es; [destruct (known s)| |]; auto.
    + injection E as <- <-. injection Es as <- <- <-. split; [reflexivity | apply follows_same; [apply same_but_refl | exact H]].
  - eapply create_follows; eauto.
  - eapply init_node_follows; eauto.
  - simpl in E, Es. injection Es as <- <- <-. eapply init_tensor_follows; eauto.
  - simpl in E, Es.
    assert (P : b <> Other -> (let '(k1, ok) := exec p (push_b b k) in (pop_b k1, ok)) = (k', ok) ->
                lex (Some b) (hd_error (k_cs k)) p (k_db k) ws = (db, es, ok') -> ok = ok' /\ follows k k' ws db es).
    { intros _ E' L. destruct (exec p (push_b b k)) as [k1 ok1] eqn:E1. injection E' as <- <-.
      destruct (IHp (push_b b k) ws _ _ _ _ _ H E1 L) as [-> F]. split; [reflexivity|].
      destruct F; constructor; simpl in *; try assumption. rewrite fo_bs0. reflexivity. }
    destruct b as [s | o | ]; [apply P; auto; discriminate | apply P; auto; discriminate |].
    injection E as <- <-. injection Es as <- <- <-. split; [reflexivity | apply follows_same; [apply same_but_refl | exact H]].
  - simpl in E, Es. destruct c as [c|].
    + destruct (exec p (push_c c k)) as [k1 ok1] eqn:E1. injection E as <- <-.
      destruct (IHp (push_c c k) ws _ _ _ _ _ H E1 Es) as [-> F]. split; [reflexivity|].
      destruct F; constructor; simpl in *; try assumption. rewrite fo_cs0. reflexivity.
    + injection E as <- <-. injection Es as <- <- <-. split; [reflexivity | apply follows_same; [apply same_but_refl | exact H]].
Qed.

Lemma exec_stacks p k k' ok : exec p k = (k', ok) -> k_bs k' = k_bs k /\ k_cs k' = k_cs k.
Proof.
  revert k k' ok.
  assert (GB : forall b k k' r, get_backend b k = (k', r) -> k_bs k' = k_bs k /\ k_cs k' = k_cs k)
    by (intros b k k' r G; destruct (get_backend_spec G) as [[] _]; auto).
  assert (CR : forall src bk bad k k' ok, create src bk bad k = (k', ok) -> k_bs k' = k_bs k /\ k_cs k' = k_cs k).
  { intros src bk bad k k' ok E. unfold create in E.
    destruct (get_backend _ k) as [k1 [o|]] eqn:G; [|injection E as <- <-; eauto].
    destruct bad; injection E as <- <-; [eauto|]. destruct (GB _ _ _ _ G) as [<- <-].
    unfold finish_node. destruct (get_current_collection k1); split; reflexivity. }
  induction p as [|p IHp q IHq| |p IHp q IHq| |b|src bk bad|bk bad|bk bad|b p IHp|c p IHp]; intros k k' ok E; simpl in E.
  - injection E as <- <-; auto.
  - destruct (exec p k) as [k1 [|]] eqn:E1; [|injection E as <- <-; eauto].
    destruct (IHp _ _ _ E1) as [<- <-]; eauto.
  - injection E as <- <-; auto.
  - destruct (exec p k) as [k1 [|]] eqn:E1; [injection E as <- <-; eauto|].
    destruct (IHp _ _ _ E1) as [<- <-]; eauto.
  - injection E as <- <-; auto.
  - unfold set_default_backend in E. destruct (k_bs k) eqn:B; [|injection E as <- <-; auto].
    destruct b as [s | o | ]; [destruct (known s)| |]; injection E as <- <-; auto.
  - eauto.
  - unfold initialize_node in E. destruct bk as [b|].
    + destruct (get_backend b k) as [k1 [o|]] eqn:G; [|injection E as <- <-; eauto].
      destruct (GB _ _ _ _ G) as [<- <-].
      destruct bad; [injection E as <- <-; auto | eauto].
    + destruct (get_default_backend k) as [s | o | ]; try (injection E as <- <-; auto).
      destruct bad; [injection E as <- <-; auto | eauto].
  - unfold initialize_tensor in E. destruct (get_backend _ k) as [k1 [o|]] eqn:G; [|injection E as <- <-; eauto].
    destruct bad; [injection E as <- <-; eauto|]. destruct (GB _ _ _ _ G) as [<- <-].
    destruct (get_backend _ k1) as [k3 r3] eqn:G3. injection E as <- <-; eauto.
  - destruct b as [s | o | ]; [| |injection E as <- <-; auto];
      (destruct (exec p _) as [k1 o1] eqn:E1; injection E as <- <-; apply IHp in E1; destruct E1 as [A B];
       simpl in *; rewrite A; auto).
  - destruct c as [c|]; [|injection E as <- <-; auto].
    destruct (exec p _) as [k1 o1] eqn:E1; injection E as <- <-; apply IHp in E1; destruct E1 as [A B].
    simpl in *; rewrite B; auto.
Qed.


(** no statement changes the default from inside a backend block; no hypothesis on the nodes *)
Lemma exec_default p k k' ok : k_bs k <> [] -> exec p k = (k', ok) -> k_db k' = k_db k.
Proof.
  revert k k' ok.
  assert (GB : forall b k k' r, get_backend b k = (k', r) -> k_db k' = k_db k)
    by (intros b k k' r G; destruct (get_backend_spec G) as [[] _]; auto).
  assert (CR : forall src bk bad k k' ok, create src bk bad k = (k', ok) -> k_db k' = k_db k).
  { intros src bk bad k k' ok E. unfold create in E.
    destruct (get_backend _ k) as [k1 [o|]] eqn:G; [|injection E as <- <-; eauto].
    destruct bad; injection E as <- <-; [eauto|]. rewrite <- (GB _ _ _ _ G).
    unfold finish_node. destruct (get_current_collection k1); reflexivity. }
  induction p as [|p IHp q IHq| |p IHp q IHq| |b|src bk bad|bk bad|bk bad|b p IHp|c p IHp]; intros k k' ok NE E; simpl in E.
  - injection E as <- <-; auto.
  - destruct (exec p k) as [k1 [|]] eqn:E1; [|injection E as <- <-; eauto].
    rewrite <- (IHp _ _ _ NE E1). apply IHq in E; [exact E|]. destruct (exec_stacks E1) as [-> _]. exact NE.
  - injection E as <- <-; auto.
  - destruct (exec p k) as [k1 [|]] eqn:E1; [injection E as <- <-; eauto|].
    rewrite <- (IHp _ _ _ NE E1). apply IHq in E; [exact E|]. destruct (exec_stacks E1) as [-> _]. exact NE.
  - injection E as <- <-; auto.
  - unfold set_default_backend in E. destruct (k_bs k) eqn:B; [congruence | injection E as <- <-; auto].
  - eauto.
  - unfold initialize_node in E. destruct bk as [b|].
    + destruct (get_backend b k) as [k1 [o|]] eqn:G; [|injection E as <- <-; eauto].
      rewrite <- (GB _ _ _ _ G). destruct bad; [injection E as <- <-; auto | eauto].
    + destruct (get_default_backend k) as [s | o | ]; try (injection E as <- <-; auto).
      destruct bad; [injection E as <- <-; auto | eauto].
  - unfold initialize_tensor in E. destruct (get_backend _ k) as [k1 [o|]] eqn:G; [|injection E as <- <-; eauto].
    destruct bad; [injection E as <- <-; eauto|]. rewrite <- (GB _ _ _ _ G).
    destruct (get_backend _ k1) as [k3 r3] eqn:G3. injection E as <- <-; eauto.
  - destruct b as [s | o | ]; [| |injection E as <- <-; auto];
      (destruct (exec p _) as [k1 o1] eqn:E1; injection E as <- <-; apply IHp in E1; [exact E1 | discriminate]).
  - destruct c as [c|]; [|injection E as <- <-; auto].
    destruct (exec p _) as [k1 o1] eqn:E1; injection E as <- <-; apply IHp in E1; [exact E1 | exact NE].
Qed.

Lemma backend_block b p k k' ok : exec (InBackend b p) k = (k', ok) ->
  get_default_backend k' = get_default_backend k /\ k_db k' = k_db k /\ get_current_collection k' = get_current_collection k.
Proof.
  intros E. destruct (exec_stacks E) as [A B]. unfold get_default_backend, get_current_collection. rewrite A, B.
  assert (D : k_db k' = k_db k).
  { simpl in E. destruct b as [s | o | ]; [| |injection E as <- <-; reflexivity];
      (destruct (exec p _) as [k1 o1] eqn:E1; injection E as <- <-; apply exec_default in E1; [exact E1 | discriminate]). }
  rewrite D. auto.
Qed.
Lemma coll_block c p k k' ok : exec (InColl c p) k = (k', ok) ->
  get_current_collection k' = get_current_collection k /\ (k_bs k <> [] -> get_default_backend k' = get_default_backend k).
Proof.
  intros E. destruct (exec_stacks E) as [A B]. unfold get_default_backend, get_current_collection. rewrite A, B.
  split; [reflexivity|]. destruct (k_bs k); [congruence | reflexivity].
Qed.

(** each node is in exactly the container of its block *)
Lemma in_coll_lt x es n i : In i (in_coll x n es) -> n <= i.
Proof.
  revert n; induction es as [|[w [c|] | d c] r IH]; intros n; simpl; try contradiction.
  - destruct (Nat.eqb c x); [intros [<- | H]; [lia|] | intros H]; apply IH in H; lia.
  - intros H; apply IH in H; lia.
  - apply IH.
Qed.
Lemma in_coll_count x es : forall n i c, nth_error (made_in es) i = Some c ->
  count_occ Nat.eq_dec (in_coll x n es) (n + i) = match c with Some y => if Nat.eqb y x then 1 else 0 | None => 0 end.
Proof.
  assert (Z : forall n r, count_occ Nat.eq_dec (in_coll x (S n) r) n = 0).
  { intros n r. apply count_occ_not_In. intros H. apply in_coll_lt in H. lia. }
  induction es as [|[w o | d o] r IH]; intros n i c; simpl.
  - destruct i; discriminate.
  - destruct i as [|i]; simpl.
    + intros [= <-]. rewrite Nat.add_0_r. destruct o as [y|]; [|apply Z].
      destruct (Nat.eqb y x); [|apply Z]. simpl. destruct (Nat.eq_dec n n); [|congruence]. rewrite Z. reflexivity.
    + intros H. pose proof (IH (S n) i c H) as IH'. replace (S n + i) with (n + S i) in IH' by lia.
      destruct o as [y|]; [|exact IH']. destruct (Nat.eqb y x); [|exact IH'].
      simpl. destruct (Nat.eq_dec n (n + S i)); [lia | exact IH'].
  - intros H. apply IH. exact H.
Qed.
