(** * KerasEntangler: the network of DenseEntangler applies its gates one after the other *)
From Verif Require Import Prelude Algebra Tensor TensorFacts Res Backends ListFacts Keras KerasSpec KerasCall KerasFacts.
Set Implicit Arguments.
Unset Strict Implicit.

Lemma put_same s p a : put s p a p = a.
Proof. unfold put. rewrite Nat.eqb_refl. reflexivity. Qed.
Lemma put_other s p a l : l <> p -> put s p a l = s l.
Proof. intros H. unfold put. destruct (Nat.eqb_spec l p); [contradiction|reflexivity]. Qed.
Lemma mod_ne L a b : 0 < L -> a < b -> b < a + L -> a mod L <> b mod L.
Proof.
  intros HL H1 H2 E. pose proof (Nat.div_mod a L ltac:(lia)) as Ea. pose proof (Nat.div_mod b L ltac:(lia)) as Eb. rewrite E in Ea.
  assert (b - a = L * (b / L - a / L)) as D by nia. assert (b / L <= a / L \/ a / L < b / L) as [G|G] by lia; nia.
Qed.
Definition others (p q : nat) (ls : list nat) : list nat := filter (fun l => negb (l =? p) && negb (l =? q)) ls.
Lemma gather_filter A (f : A -> bool) (l : list A) d : gather d l (filter (fun i => f (nth i l d)) (seq 0 (length l))) = filter f l.
Proof.
  assert (forall p, gather d (p ++ l) (filter (fun i => f (nth i (p ++ l) d)) (seq (length p) (length l))) = filter f l) as G; [|apply (G [])].
  induction l as [|a l IH]; intros p; [reflexivity|]. cbn [length seq filter]. rewrite app_nth2, Nat.sub_diag by lia. cbn [nth].
  assert (p ++ a :: l = (p ++ [a]) ++ l) as Ep by (rewrite <- app_assoc; reflexivity).
  assert (gather d (p ++ a :: l) (filter (fun i => f (nth i (p ++ a :: l) d)) (seq (S (length p)) (length l))) = filter f l) as E.
  { rewrite Ep. rewrite <- (IH (p ++ [a])). rewrite app_length. cbn [length]. replace (length p + 1) with (S (length p)) by lia. reflexivity. }
  destruct (f a); [|exact E]. cbn [gather map]. fold (gather d (p ++ a :: l) (filter (fun i => f (nth i (p ++ a :: l) d)) (seq (S (length p)) (length l)))).
  rewrite E. f_equal. rewrite app_nth2, Nat.sub_diag by lia. reflexivity.
Qed.
Lemma free_labels ls p q : NoDup ls -> In p ls -> In q ls ->
  free_axes (length ls) [nindex p ls; nindex q ls] = filter (fun i => negb (nth i ls 0 =? p) && negb (nth i ls 0 =? q)) (seq 0 (length ls)).
Proof.
  intros N Hp Hq. unfold free_axes. apply filter_ext_in. intros i Hi. apply in_seq in Hi. unfold mem. cbn [existsb]. rewrite orb_false_r, negb_orb.
  assert (forall l, In l ls -> (i =? nindex l ls) = (nth i ls 0 =? l)) as G; [|rewrite !G by assumption; reflexivity].
  intros l Hl. destruct (Nat.eqb_spec i (nindex l ls)) as [->|Hn]; symmetry.
  - apply Nat.eqb_eq. apply nth_index_of. exact Hl.
  - apply Nat.eqb_neq. intros <-. apply Hn. symmetry. apply index_of_nth; [exact N|lia].
Qed.
Lemma gather_free A (f : nat -> A) d ls p q : NoDup ls -> In p ls -> In q ls ->
  gather d (map f ls) (free_axes (length ls) [nindex p ls; nindex q ls]) = map f (others p q ls).
Proof.
  intros N Hp Hq. rewrite (free_labels N Hp Hq). unfold others. rewrite <- (@gather_filter nat _ ls 0). unfold gather. rewrite map_map. apply map_ext_in. intros i Hi.
  apply filter_In in Hi as (Hi & _). apply in_seq in Hi. rewrite (nth_indep _ d (f 0)) by (rewrite map_length; lia). apply map_nth.
Qed.
Lemma nth_map_index A (f : nat -> A) d ls p : In p ls -> nth (nindex p ls) (map f ls) d = f p.
Proof.
  intros H. pose proof (index_of_lt Nat.eq_dec p ls H) as Hl. rewrite (nth_indep _ d (f 0)) by (rewrite map_length; exact Hl). rewrite map_nth, nth_index_of by exact H. reflexivity.
Qed.
Lemma In_others p q ls l : In l (others p q ls) <-> In l ls /\ l <> p /\ l <> q.
Proof.
  unfold others. rewrite filter_In, andb_true_iff, !negb_true_iff, !Nat.eqb_neq. tauto.
Qed.

Lemma nth_rep k n (a : nat) : k < n -> nth k (repeat a n) 0 = a.
Proof. intros H. rewrite (nth_indep _ 0 a) by (rewrite repeat_length; exact H). apply nth_repeat. Qed.

Section Gates.
  Context {R : csr}.
  Notation tensor := (tensor R).
  Add Ring rr : (@rsr R).

  Lemma link_gate (t w : tensor) ls p q dim c d : NoDup ls -> In p ls -> In q ls -> p <> q -> shape t = map dim ls -> shape w = [dim p; dim q; c; d] ->
    exists t', link t w [nindex p ls; nindex q ls] [0; 1] = Ok t' /\ shape t' = map (put (put dim q d) p c) (others p q ls ++ [p; q]) /\
      forall s, elt t' (map s (others p q ls ++ [p; q])) = gate w p q (fun s => elt t (map s ls)) s.
  Proof.
    intros N Hp Hq Hn Et Ew. assert (rank t = length ls) as Er by (unfold rank; rewrite Et, map_length; reflexivity).
    assert (gather 0 (shape t) [nindex p ls; nindex q ls] = [dim p; dim q]) as Eg by (rewrite Et; cbn [gather map]; rewrite !nth_map_index by assumption; reflexivity).
    assert (forall f a b, map (put (put f q b) p a) (others p q ls) = map f (others p q ls)) as Po.
    { intros f a b. apply map_ext_in. intros l Hl. apply In_others in Hl as (_ & H1 & H2). rewrite put_other, put_other by assumption. reflexivity. }
    eexists. split; [apply link_ok; rewrite Eg, Ew; reflexivity|]. split.
    - cbn [tensordot shape]. rewrite Er, Et. rewrite gather_free by assumption. rewrite map_app, Po. f_equal. unfold rank. rewrite Ew. cbn.
      rewrite put_same, (@put_other _ p c q) by congruence. rewrite put_same. reflexivity.
    - intros s. rewrite map_app. cbn [map].
      rewrite (@td_at R t w _ [0; 1] (map s (others p q ls)) [s p; s q] (fun vs => map (put (put s q (nth 1 vs 0)) p (nth 0 vs 0)) ls) (fun vs => nth 0 vs 0 :: nth 1 vs 0 :: [s p; s q])).
      + rewrite Eg, idxs2. unfold gate. rewrite Ew. reflexivity.
      + apply nd2. intros E. apply Hn. rewrite <- (@nth_index_of nat Nat.eq_dec p ls 0 Hp), <- (@nth_index_of nat Nat.eq_dec q ls 0 Hq). rewrite E. reflexivity.
      + apply nd2. lia.
      + rewrite Er. intros i [<-|[<-|[]]]; apply index_of_lt; assumption.
      + unfold rank. rewrite Ew. cbn. intros i [<-|[<-|[]]]; lia.
      + rewrite map_length, Er. rewrite <- (map_length (fun x => x) (others p q ls)). rewrite <- (@gather_free nat (fun x => x) 0 ls p q N Hp Hq). apply gather_length.
      + rewrite Eg. intros vs Hv. apply valid2 in Hv as (a & b & -> & _ & _). rewrite Er, map_length. cbn [nth]. split; [reflexivity|]. split.
        * rewrite gather_free by assumption. apply Po.
        * cbn [gather map]. rewrite !nth_map_index by assumption. rewrite put_same, put_other, put_same by congruence. reflexivity.
      + rewrite Eg. intros vs Hv. apply valid2 in Hv as (a & b & -> & _ & _). unfold rank. rewrite Ew. cbn. split; [reflexivity|]. split; reflexivity.
  Qed.

  (** dimensions and order of the legs *)
  Fixpoint fits (L i : nat) (dim : nat -> nat) (ws : list tensor) : Prop :=
    match ws with
    | [] => True
    | w :: ws => let p := i mod L in let q := (i + 1) mod L in
      exists c d, shape w = [dim p; dim q; c; d] /\ fits L (S i) (put (put dim q d) p c) ws
    end.
  Fixpoint last_dim (L i : nat) (dim : nat -> nat) (ws : list tensor) : nat -> nat :=
    match ws with
    | [] => dim
    | w :: ws => let p := i mod L in let q := (i + 1) mod L in last_dim L (S i) (put (put dim q (nth 3 (shape w) 0)) p (nth 2 (shape w) 0)) ws
    end.
  Fixpoint last_legs (L i n : nat) (ls : list nat) : list nat :=
    match n with
    | 0 => ls
    | S n => last_legs L (S i) n (others (i mod L) ((i + 1) mod L) ls ++ [i mod L; (i + 1) mod L])
    end.

  Lemma gates_ext L (ws : list tensor) : forall i dim psi phi, 2 <= L -> fits L i dim ws ->
    (forall s, (forall l, l < L -> s l < dim l) -> psi s = phi s) ->
    forall s, (forall l, l < L -> s l < last_dim L i dim ws l) -> gates L i ws psi s = gates L i ws phi s.
  Proof.
    induction ws as [|w ws IH]; intros i dim psi phi HL F H s Hs; cbn [gates last_dim] in *; [apply H; exact Hs|].
    destruct F as (c & d & Ew & F). rewrite Ew in Hs. cbn [nth] in Hs. apply (IH (S i) _ _ _ HL F); [|exact Hs]. intros u Hu. unfold gate. rewrite Ew. cbn [nth].
    apply nsum_ext. intros a Ha. apply nsum_ext. intros b Hb. f_equal. apply H. intros l Hl. specialize (Hu l Hl).
    unfold put in *. destruct (l =? i mod L) eqn:E1; [apply Nat.eqb_eq in E1; subst l; exact Ha|].
    destruct (l =? (i + 1) mod L) eqn:E2; [apply Nat.eqb_eq in E2; subst l; exact Hb|exact Hu].
  Qed.
  Lemma gates_all L (ws : list tensor) : forall i psi phi, (forall s, psi s = phi s) -> forall s, gates L i ws psi s = gates L i ws phi s.
  Proof.
    induction ws as [|w ws IH]; intros i psi phi H s; cbn [gates]; [apply H|]. apply IH. intros u. unfold gate. apply nsum_ext. intros a _. apply nsum_ext. intros b _.
    rewrite H. reflexivity.
  Qed.

  Lemma entangler_loop_ok L (ws : list tensor) : forall i dim (t : tensor) ls, 2 <= L -> NoDup ls -> (forall l, In l ls <-> l < L) -> shape t = map dim ls -> fits L i dim ws ->
    exists y, entangler_loop L i t ls ws = Ok y /\ shape y = map (last_dim L i dim ws) (last_legs L i (length ws) ls) /\
      forall s, elt y (map s (last_legs L i (length ws) ls)) = gates L i ws (fun s => elt t (map s ls)) s.
  Proof.
    induction ws as [|w ws IH]; intros i dim t ls HL N HI Et F; cbn [entangler_loop length last_legs last_dim gates].
    - exists t. split; [reflexivity|]. split; [exact Et|reflexivity].
    - destruct F as (c & d & Ew & F). assert (i mod L < L /\ (i + 1) mod L < L) as (Hp & Hq) by (split; apply Nat.mod_upper_bound; lia).
      assert (i mod L <> (i + 1) mod L) as Hn by (apply mod_ne; lia).
      destruct (@link_gate t w ls (i mod L) ((i + 1) mod L) dim c d N) as (t' & -> & St & Vt); [apply HI; exact Hp|apply HI; exact Hq|exact Hn|exact Et|exact Ew|].
      cbn [rbind]. fold (others (i mod L) ((i + 1) mod L) ls).
      destruct (IH (S i) (put (put dim ((i + 1) mod L) d) (i mod L) c) t' (others (i mod L) ((i + 1) mod L) ls ++ [i mod L; (i + 1) mod L]) HL) as (y & -> & Sy & Vy).
      + apply NoDup_app_iff. split; [apply NoDup_filter; exact N|]. split; [apply nd2; exact Hn|]. intros l Hl. apply In_others in Hl as (_ & H1 & H2).
        intros [E|[E|[]]]; congruence.
      + intros l. rewrite in_app_iff, In_others, HI. cbn [In]. destruct (Nat.eq_dec l (i mod L)) as [->|N1]; [tauto|]. destruct (Nat.eq_dec l ((i + 1) mod L)) as [->|N2]; [tauto|].
        split; [intros [(H & _)|[E|[E|[]]]]; [exact H|congruence|congruence]|intros H; left; split; [exact H|split; assumption]].
      + exact St.
      + exact F.
      + exists y. split; [reflexivity|]. split; [rewrite Sy, Ew; reflexivity|]. intros s. rewrite Vy. apply gates_all. exact Vt.
  Qed.

  (** the order of the legs at the end *)
  Definition turned (L n : nat) : list nat := map (fun j => (n + 1 + j) mod L) (seq 0 L).
  Lemma others_all p q l : (forall x, In x l -> x <> p /\ x <> q) -> others p q l = l.
  Proof.
    intros H. apply filter_all. intros x Hx. destruct (H x Hx) as (H1 & H2). apply Nat.eqb_neq in H1. apply Nat.eqb_neq in H2. rewrite H1, H2. reflexivity.
  Qed.
  Lemma turned_step L i : 2 <= L -> others (i mod L) ((i + 1) mod L) (turned L i) ++ [i mod L; (i + 1) mod L] = turned L (S i).
  Proof.
    intros HL. destruct L as [|[|L]]; [lia|lia|]. set (N := S (S L)) in *. unfold turned.
    assert (seq 0 N = 0 :: seq 1 L ++ [S L]) as E1 by (unfold N; rewrite <- cons_seq; f_equal; replace (S L) with (L + 1) at 1 by lia; rewrite seq_app; reflexivity).
    assert (seq 0 N = seq 0 L ++ [L; S L]) as E2 by (unfold N; replace (S (S L)) with (L + 2) by lia; rewrite seq_app; reflexivity).
    rewrite E1 at 1. rewrite E2. rewrite map_app. cbn [map]. rewrite map_app. cbn [map].
    replace (i + 1 + 0) with (i + 1) by lia.
    assert ((i + 1 + S L) mod N = i mod N) as E3.
    { replace (i + 1 + S L) with (i + 1 * N) by (unfold N; lia). apply Nat.mod_add. unfold N; lia. }
    assert ((S i + 1 + L) mod N = i mod N) as E4.
    { replace (S i + 1 + L) with (i + 1 * N) by (unfold N; lia). apply Nat.mod_add. unfold N; lia. }
    assert ((S i + 1 + S L) mod N = (i + 1) mod N) as E5.
    { replace (S i + 1 + S L) with (i + 1 + 1 * N) by (unfold N; lia). apply Nat.mod_add. unfold N; lia. }
    rewrite E3, E4, E5. f_equal.
    unfold others at 1. cbn [filter]. rewrite Nat.eqb_refl, andb_false_r. rewrite filter_app. cbn [filter]. rewrite Nat.eqb_refl. cbn [negb andb]. rewrite app_nil_r.
    fold (others (i mod N) ((i + 1) mod N) (map (fun j => (i + 1 + j) mod N) (seq 1 L))). rewrite others_all.
    - rewrite <- seq_shift, map_map. apply map_ext. intros j. f_equal. lia.
    - intros x Hx. apply in_map_iff in Hx as (j & <- & Hj). apply in_seq in Hj. split; apply not_eq_sym; apply mod_ne; unfold N; lia.
  Qed.
  Lemma turned_first L : 2 <= L -> others (0 mod L) ((0 + 1) mod L) (seq 0 L) ++ [0 mod L; (0 + 1) mod L] = turned L 1.
  Proof.
    intros HL. rewrite <- (@turned_step L 0 HL). f_equal. destruct L as [|[|L]]; [lia|lia|]. set (N := S (S L)). rewrite (Nat.mod_small 0 N), (Nat.mod_small (0 + 1) N) by (unfold N; lia).
    unfold turned. assert (map (fun j => (0 + 1 + j) mod N) (seq 0 N) = seq 1 (S L) ++ [0]) as ->.
    { unfold N. replace (S (S L)) with (S L + 1) by lia. rewrite seq_app, map_app. f_equal.
      - rewrite <- seq_shift. apply map_ext_in. intros j Hj. apply in_seq in Hj. apply Nat.mod_small. lia.
      - cbn [seq map]. f_equal. replace (0 + 1 + (0 + S L)) with (S L + 1) by lia. apply Nat.mod_same. lia. }
    unfold N, others. rewrite filter_app. cbn [filter seq]. cbn. rewrite app_nil_r. reflexivity.
  Qed.
  Lemma last_legs_turned L n : forall i, 2 <= L -> last_legs L i n (turned L i) = turned L (i + n).
  Proof.
    induction n as [|n IH]; intros i HL; cbn [last_legs]; [f_equal; lia|]. rewrite turned_step by exact HL. rewrite IH by exact HL. f_equal. lia.
  Qed.
  Lemma last_legs_start L n : 2 <= L -> 1 <= n -> last_legs L 0 n (seq 0 L) = turned L n.
  Proof.
    intros HL Hn. destruct n as [|n]; [lia|]. cbn [last_legs]. rewrite turned_first by exact HL. rewrite last_legs_turned by exact HL. f_equal.
  Qed.
  Lemma NoDup_turned L n : 2 <= L -> NoDup (turned L n).
  Proof.
    intros HL. apply NoDup_map_in; [|apply seq_NoDup]. intros a b Ha Hb E. apply in_seq in Ha, Hb.
    destruct (Nat.lt_trichotomy a b) as [G|[G|G]]; [|exact G|]; exfalso.
    - revert E. apply mod_ne; lia.
    - symmetry in E. revert E. apply mod_ne; lia.
  Qed.
  Lemma In_turned L n l : 2 <= L -> In l (turned L n) <-> l < L.
  Proof.
    intros HL. split.
    - intros H. apply in_map_iff in H as (j & <- & _). apply Nat.mod_upper_bound. lia.
    - intros H. assert (incl (turned L n) (seq 0 L)) as I. { intros x Hx. apply in_map_iff in Hx as (j & <- & _). apply in_seq. split; [lia|]. apply Nat.mod_upper_bound. lia. }
      assert (incl (seq 0 L) (turned L n)) as J. { apply NoDup_length_incl; [apply NoDup_turned; exact HL|unfold turned; rewrite map_length; lia|exact I]. }
      apply J. apply in_seq. lia.
  Qed.

  (** the dimensions of [build] *)
  Definition aexp (p m q n i : nat) : nat := if i =? 0 then p else if i <? n then m else q.
  Definition bexp (L p m q n g : nat) : nat := if g <? L - 1 then p else if g <? n then m else q.
  Definition dims_at (L p m q n i : nat) (dim : nat -> nat) : Prop :=
    dim (i mod L) = aexp p m q n i /\ forall j, j < L - 1 -> dim ((i + 1 + j) mod L) = bexp L p m q n (i + j).
  Lemma shape_at L levels p q i : 2 <= L -> 1 <= levels -> i < levels * (L - 1) -> let n := levels * (L - 1) in let m := Nat.min p q in
    entangler_shape p q L levels i = [aexp p m q n i; bexp L p m q n i; bexp L p m q n (i + (L - 1)); aexp p m q n (S i)].
  Proof.
    intros HL Hl Hi n m. unfold entangler_shape. fold n m.
    assert (i / (L - 1) = 0 <-> i < L - 1) as D0.
    { split; intros H; [apply Nat.div_small_iff in H; lia|apply Nat.div_small; exact H]. }
    assert (i / (L - 1) = levels - 1 <-> n <= i + (L - 1)) as D1.
    { unfold n. split; intros H.
      - pose proof (Nat.div_mod i (L - 1) ltac:(lia)). nia.
      - assert (i / (L - 1) < levels) by (apply Nat.div_lt_upper_bound; lia). assert (levels - 1 <= i / (L - 1)) by (apply Nat.div_le_lower_bound; nia). lia. }
    unfold aexp, bexp. f_equal; [|f_equal; [|f_equal; [|f_equal]]].
    - destruct (i =? 0); [reflexivity|]. destruct (Nat.ltb_spec i n); [reflexivity|unfold n in *; lia].
    - destruct (Nat.eqb_spec (i / (L - 1)) 0) as [E|E]; destruct (Nat.ltb_spec i (L - 1)); try tauto; try lia.
      destruct (Nat.ltb_spec i n); [reflexivity|unfold n in *; lia].
    - destruct (Nat.ltb_spec (i + (L - 1)) (L - 1)); [lia|]. destruct (Nat.eqb_spec (i / (L - 1)) (levels - 1)) as [E|E]; destruct (Nat.ltb_spec (i + (L - 1)) n); try reflexivity; exfalso; tauto || lia.
    - destruct (Nat.eqb_spec (S i) 0); [lia|]. destruct (Nat.eqb_spec i (n - 1)); destruct (Nat.ltb_spec (S i) n); try reflexivity; unfold n in *; lia.
  Qed.
  Lemma dims_fit L levels p q : 2 <= L -> 1 <= levels -> let n := levels * (L - 1) in forall (ws : list tensor) i dim,
    map shape ws = map (entangler_shape p q L levels) (seq i (n - i)) -> i <= n -> dims_at L p (Nat.min p q) q n i dim ->
    fits L i dim ws /\ dims_at L p (Nat.min p q) q n n (last_dim L i dim ws).
  Proof.
    intros HL Hl n ws. induction ws as [|w ws IH]; intros i dim Es Hi D.
    - cbn [fits last_dim]. assert (n - i = 0) as E by (destruct (n - i); [reflexivity|discriminate]). assert (i = n) as <- by lia. split; [exact I|exact D].
    - assert (exists k, n - i = S k) as (k & Ek) by (destruct (n - i) as [|k]; [discriminate|exists k; reflexivity]).
      rewrite Ek in Es. cbn [map seq] in Es. injection Es as Ew Es. replace k with (n - S i) in Es by lia.
      assert (i < n) as Hin by lia. rewrite (shape_at p q HL Hl Hin) in Ew. fold n in Ew. set (m := Nat.min p q) in *. destruct D as (D1 & D2).
      pose proof (D2 0 ltac:(lia)) as D3. replace (i + 1 + 0) with (i + 1) in D3 by lia. replace (i + 0) with i in D3 by lia.
      cbn [fits last_dim]. rewrite Ew. cbn [nth]. rewrite D1, D3.
      assert (dims_at L p m q n (S i) (put (put dim ((i + 1) mod L) (aexp p m q n (S i))) (i mod L) (bexp L p m q n (i + (L - 1))))) as D'.
      { split.
        - replace (S i) with (i + 1) at 2 by lia. rewrite put_other by (apply not_eq_sym, mod_ne; lia). rewrite put_same. reflexivity.
        - intros j Hj. destruct (Nat.eq_dec j (L - 2)) as [->|Hne].
          + replace (S i + 1 + (L - 2)) with (i + 1 * L) by lia. rewrite Nat.mod_add by lia. rewrite put_same. f_equal. lia.
          + rewrite put_other by (apply not_eq_sym, mod_ne; lia). rewrite put_other by (apply not_eq_sym, mod_ne; lia).
            replace (S i + 1 + j) with (i + 1 + S j) by lia. rewrite D2 by lia. f_equal. lia. }
      destruct (IH (S i) _ Es ltac:(lia) D') as (F & D''). split; [|exact D''].
      exists (bexp L p m q n (i + (L - 1))), (aexp p m q n (S i)). split; [reflexivity|exact F].
  Qed.

  Lemma entangled_dims L levels p q (ws : list tensor) : 2 <= L -> 1 <= levels -> map shape ws = map (entangler_shape p q L levels) (seq 0 (levels * (L - 1))) ->
    fits L 0 (fun _ => p) ws /\ forall l, l < L -> last_dim L 0 (fun _ => p) ws l = q.
  Proof.
    intros HL Hl Es. set (n := levels * (L - 1)) in *. assert (L - 1 <= n) as Hn by (unfold n; nia).
    destruct (@dims_fit L levels p q HL Hl ws 0 (fun _ => p)) as (F & D1 & D2).
    - rewrite Nat.sub_0_r. exact Es.
    - lia.
    - split; [reflexivity|]. intros j Hj. unfold bexp. cbn [plus]. destruct (Nat.ltb_spec j (L - 1)); [reflexivity|lia].
    - split; [exact F|]. intros l Hll. fold n in D1, D2. assert (In l (turned L n)) as Hin by (apply In_turned; assumption).
      apply in_map_iff in Hin as (j & <- & Hj). apply in_seq in Hj. destruct (Nat.eq_dec j (L - 1)) as [->|Hne].
      + replace (n + 1 + (L - 1)) with (n + 1 * L) by lia. rewrite Nat.mod_add by lia. rewrite D1. unfold aexp. destruct (Nat.eqb_spec n 0); [lia|]. rewrite Nat.ltb_irrefl. reflexivity.
      + rewrite D2 by lia. unfold bexp. destruct (Nat.ltb_spec (n + j) (L - 1)); [lia|]. destruct (Nat.ltb_spec (n + j) n); [lia|reflexivity].
  Qed.

  Lemma entangler_core L levels p q (ws : list tensor) (x : tensor) bias : 2 <= L -> 1 <= levels ->
    map shape ws = map (entangler_shape p q L levels) (seq 0 (levels * (L - 1))) -> shape x = [p ^ L] -> bias_ok bias (q ^ L) ->
    exists y, entangler_f ws L p (q ^ L) bias x = Ok y /\
      to_list y = map (fun o => entangled L p q ws (fun i => elt x [i]) o +! bias_at bias o) (seq 0 (q ^ L)).
  Proof.
    intros HL Hl Es Ex B. destruct (@entangled_dims L levels p q ws HL Hl Es) as (F & D).
    assert (length ws = levels * (L - 1)) as Lw by (rewrite <- (map_length shape ws), Es, map_length, seq_length; reflexivity).
    assert (1 <= length ws) as Lw1 by (rewrite Lw; nia).
    unfold entangler_f. rewrite to_shape_ok by (rewrite Ex, nprod_pow; cbn; lia). cbn [rbind].
    destruct (@entangler_loop_ok L ws 0 (fun _ => p) (reshape x (repeat p L)) (seq 0 L) HL) as (y & -> & Sy & Vy).
    - apply seq_NoDup.
    - intros l. rewrite in_seq. lia.
    - cbn [reshape shape]. clear. generalize 0. induction L as [|L IH]; intros a; cbn; [reflexivity|]. f_equal. apply IH.
    - exact F.
    - cbn [rbind]. rewrite (last_legs_start HL Lw1) in *.
      assert (shape y = repeat q L) as Sy'.
      { rewrite Sy. apply (nth_ext _ _ 0 0); [rewrite map_length, repeat_length; unfold turned; rewrite map_length, seq_length; reflexivity|].
        intros k Hk. rewrite map_length in Hk. rewrite (nth_indep _ 0 (last_dim L 0 (fun _ => p) ws 0)) by (rewrite map_length; exact Hk). rewrite map_nth.
        assert (length (turned L (length ws)) = L) as Lt by (unfold turned; rewrite map_length, seq_length; reflexivity). rewrite Lt in Hk.
        rewrite nth_rep by lia. apply D. apply (In_turned (length ws) _ HL). apply nth_In. lia. }
      assert (nprod (shape y) = q ^ L) as Ep by (rewrite Sy'; apply nprod_pow).
      rewrite to_shape_ok by (rewrite Ep; cbn; lia). cbn [rbind].
      apply (@bias_list R _ bias _ (fun o => entangled L p q ws (fun i => elt x [i]) o)); [left; reflexivity|exact B|].
      rewrite reshape_to_list by (rewrite Ep; cbn; lia). rewrite to_list_unravel, Ep, Sy'. apply map_ext_in. intros o Ho. apply in_seq in Ho.
      unfold entangled. fold (turned L (length ws)). set (dg := unravel (repeat q L) o).
      assert (length dg = L) as Ld. { assert (valid dg (repeat q L)) as V by (apply unravel_valid; rewrite nprod_pow; lia). apply valid_length in V. rewrite repeat_length in V. exact V. }
      assert (map (fun l => nth (nindex l (turned L (length ws))) dg 0) (turned L (length ws)) = dg) as Em.
      { apply (nth_ext _ _ 0 0); rewrite map_length; unfold turned at 1; rewrite map_length, seq_length; [symmetry; exact Ld|]. intros k Hk.
        assert (length (turned L (length ws)) = L) as Lt by (unfold turned; rewrite map_length, seq_length; reflexivity).
        rewrite (nth_indep _ 0 ((fun l => nth (nindex l (turned L (length ws))) dg 0) 0)) by (rewrite map_length; lia).
        rewrite (map_nth (fun l => nth (nindex l (turned L (length ws))) dg 0)). rewrite index_of_nth; [reflexivity|apply NoDup_turned; exact HL|lia]. }
      rewrite <- Em at 1. rewrite Vy. apply gates_all. intros s. apply (elt_shaped _ _ Ex).
  Qed.

  Lemma entangled_ext L levels p q (ws : list tensor) (x x' : nat -> R) o : 2 <= L -> 1 <= levels ->
    map shape ws = map (entangler_shape p q L levels) (seq 0 (levels * (L - 1))) -> o < q ^ L -> (forall i, i < p ^ L -> x i = x' i) ->
    entangled L p q ws x o = entangled L p q ws x' o.
  Proof.
    intros HL Hl Es Ho H. destruct (@entangled_dims L levels p q ws HL Hl Es) as (F & D). unfold entangled. apply (@gates_ext L ws 0 (fun _ => p)); [exact HL|exact F| |].
    - intros s Hs. apply H. rewrite <- nprod_pow. apply ravel_lt. apply valid_intro; [rewrite map_length, seq_length, repeat_length; reflexivity|].
      rewrite repeat_length. intros k Hk. rewrite nth_rep by exact Hk. rewrite (nth_indep _ 0 (s 0)) by (rewrite map_length, seq_length; exact Hk). rewrite map_nth, seq_nth by exact Hk. apply Hs. exact Hk.
    - intros l Hl'. rewrite D by exact Hl'. fold (turned L (length ws)).
      assert (valid (unravel (repeat q L) o) (repeat q L)) as V by (apply unravel_valid; rewrite nprod_pow; exact Ho).
      assert (nindex l (turned L (length ws)) < L) as Hi.
      { pose proof (@index_of_lt nat Nat.eq_dec l (turned L (length ws)) (proj2 (In_turned (length ws) l HL) Hl')) as G. unfold turned in G at 2. rewrite map_length, seq_length in G. exact G. }
      pose proof (@valid_nth _ _ (nindex l (turned L (length ws))) V) as G. rewrite repeat_length in G. specialize (G Hi). rewrite nth_rep in G by exact Hi. exact G.
  Qed.
End Gates.
