(** * EinsumFacts: the calculus of labelled sums *)
From Verif Require Import Prelude Algebra Tensor TensorFacts Einsum.
Set Implicit Arguments.

Section EF.
  Variable L : Type.
  Variable Leq : forall x y : L, {x = y} + {x <> y}.
  Context {R : csr}.
  Add Ring Rring : (rsr R).
  Notation asg := (asg L).
  Notation factor := (factor L R).
  Notation esum := (esum Leq).
  Notation upd := (upd Leq).
  Implicit Types (f g : asg -> R) (a b : asg) (dim : L -> nat).

  (** [f] looks only at the labels in [D] *)
  Definition dep f (D : list L) : Prop := forall a b, (forall x, In x D -> a x = b x) -> f a = f b.
  Definition ext f : Prop := forall a b, (forall x, a x = b x) -> f a = f b.
  (** [f] does not look at [ls] *)
  Definition indep f (ls : list L) : Prop :=
    forall a b, (forall x, ~ In x ls -> a x = b x) -> f a = f b.

  Lemma dep_ext f D : dep f D -> ext f.
  Proof. intros H a b E. apply H. auto. Qed.
  Lemma dep_incl f D D' : incl D D' -> dep f D -> dep f D'.
  Proof. intros Hi H a b E. apply H. auto. Qed.
  Lemma dep_indep f D ls : dep f D -> (forall x, In x ls -> ~ In x D) -> indep f ls.
  Proof. intros H Hd a b E. apply H. intros x Hx. apply E. intros Hl. exact (Hd x Hl Hx). Qed.
  Lemma indep_ext f ls : indep f ls -> ext f.
  Proof. intros H a b E. apply H. auto. Qed.
  Lemma indep_upd f ls l i a : indep f ls -> In l ls -> f (upd a l i) = f a.
  Proof.
    intros H Hl. apply H. intros x Hx. apply upd_other. intros ->. contradiction.
  Qed.
  Lemma indep_incl f ls ls' : incl ls ls' -> indep f ls' -> indep f ls.
  Proof. intros Hi H a b E. apply H. intros x Hx. apply E. auto. Qed.

  Lemma fval_dep (x : factor) : dep (fval x) (snd x).
  Proof. intros a b E. unfold fval. f_equal. apply map_ext_in. auto. Qed.

  Lemma netprod_dep (net : list factor) : dep (netprod net) (net_labels net).
  Proof.
    intros a b E. unfold netprod. apply lprod_ext. intros x Hx.
    apply fval_dep. intros y Hy. apply E. apply in_flat_map. exists x. auto.
  Qed.

  Lemma netprod_cons (x : factor) net a : netprod (x :: net) a = fval x a *! netprod net a.
  Proof. reflexivity. Qed.
  Lemma netprod_app (n1 n2 : list factor) a : netprod (n1 ++ n2) a = netprod n1 a *! netprod n2 a.
  Proof. apply lprod_app. Qed.
  Lemma netprod_perm (n1 n2 : list factor) a : Permutation n1 n2 -> netprod n1 a = netprod n2 a.
  Proof. intros H. apply lprod_perm. exact H. Qed.

  (** *** esum *)
  Lemma esum_cons dim l r f a : esum dim (l :: r) f a = nsum (dim l) (fun i => esum dim r f (upd a l i)).
  Proof. reflexivity. Qed.
  Lemma esum_nil dim f a : esum dim [] f a = f a.
  Proof. reflexivity. Qed.

  Lemma esum_ext dim ls f g a : (forall b, f b = g b) -> esum dim ls f a = esum dim ls g a.
  Proof.
    revert a. induction ls as [|l r IH]; intros a H; [apply H|].
    rewrite !esum_cons. apply nsum_ext. intros i _. apply IH. exact H.
  Qed.

  (** only assignments within range on [ls] and equal to [a] elsewhere matter *)
  Lemma esum_ext_range dim ls f g a :
    (forall b, (forall x, ~ In x ls -> b x = a x) -> (forall x, In x ls -> b x < dim x) -> f b = g b) ->
    esum dim ls f a = esum dim ls g a.
  Proof.
    revert a. induction ls as [|l r IH]; intros a H.
    - apply H; [auto|intros x []].
    - rewrite !esum_cons. apply nsum_ext. intros i Hi. apply IH. intros b H1 H2. apply H.
      + intros x Hx. rewrite H1 by (intros K; apply Hx; right; exact K).
        apply upd_other. intros ->. apply Hx. left. reflexivity.
      + intros x [->|Hx]; [|auto].
        destruct (in_dec Leq x r) as [Hr|Hr]; [auto|]. rewrite H1 by exact Hr. rewrite upd_same. exact Hi.
  Qed.

  Lemma esum_asg dim ls f a b : ext f -> (forall x, a x = b x) -> esum dim ls f a = esum dim ls f b.
  Proof.
    revert a b. induction ls as [|l r IH]; intros a b Hf E; [apply Hf; exact E|].
    rewrite !esum_cons. apply nsum_ext. intros i _. apply IH; [exact Hf|].
    intros x. unfold Prelude.upd. destruct (Leq x l); auto.
  Qed.

  Lemma esum_ext_dim dim dim' ls f a : (forall x, In x ls -> dim x = dim' x) -> esum dim ls f a = esum dim' ls f a.
  Proof.
    revert a. induction ls as [|l r IH]; intros a H; [reflexivity|].
    rewrite !esum_cons, (H l) by (left; reflexivity). apply nsum_ext. intros i _. apply IH.
    intros x Hx. apply H. right. exact Hx.
  Qed.

  Lemma esum_extf dim ls f : ext f -> ext (esum dim ls f).
  Proof. intros Hf a b E. apply esum_asg; assumption. Qed.

  Lemma esum_dep dim ls f D : dep f D -> dep (esum dim ls f) (filter (fun x => if in_dec Leq x ls then false else true) D).
  Proof.
    revert D. induction ls as [|l r IH]; intros D Hf a b E.
    - cbn. apply Hf. intros x Hx. apply E. apply filter_In. auto.
    - rewrite !esum_cons. apply nsum_ext. intros i _. apply (IH D Hf). intros x Hx.
      apply filter_In in Hx. destruct Hx as [Hx Hr]. unfold Prelude.upd.
      destruct (Leq x l) as [->|Hne]; [reflexivity|]. apply E. apply filter_In. split; [exact Hx|].
      destruct (in_dec Leq x r) as [|Hnr]; [discriminate|].
      destruct (in_dec Leq x (l :: r)) as [[K|K]|]; [congruence|contradiction|reflexivity].
  Qed.

  Lemma esum_dep' dim ls f D : dep f D -> dep (esum dim ls f) D.
  Proof. intros H. eapply dep_incl; [|apply esum_dep; exact H]. intros x Hx. apply filter_In in Hx. tauto. Qed.

  Lemma esum_indep_self dim ls f : ext f -> indep (esum dim ls f) ls.
  Proof.
    intros Hf. induction ls as [|l r IH]; intros a b E.
    - cbn. apply Hf. auto.
    - rewrite !esum_cons. apply nsum_ext. intros i _. apply IH. intros x Hx.
      unfold Prelude.upd. destruct (Leq x l) as [->|Hne]; [reflexivity|]. apply E. intros [K|K]; congruence.
  Qed.

  Lemma esum_app dim l1 l2 f a : esum dim (l1 ++ l2) f a = esum dim l1 (esum dim l2 f) a.
  Proof.
    revert a. induction l1 as [|l r IH]; intros a; [reflexivity|].
    cbn [app]. rewrite !esum_cons. apply nsum_ext. intros i _. apply IH.
  Qed.

  Lemma esum_perm dim l1 l2 f a : ext f -> NoDup l1 -> Permutation l1 l2 -> esum dim l1 f a = esum dim l2 f a.
  Proof.
    intros Hf HN HP. revert a HN.
    induction HP as [|x l l' H IH|x y l|l l' l'' H1 IH1 H2 IH2]; intros a HN.
    - reflexivity.
    - rewrite !esum_cons. apply nsum_ext. intros i _. apply IH. inversion HN; assumption.
    - cbn [Einsum.esum].
      rewrite nsum_swap. apply nsum_ext. intros j _. apply nsum_ext. intros i _.
      apply esum_asg; [exact Hf|]. intros z. unfold Prelude.upd.
      inversion HN as [|? ? Hy _]; subst. destruct (Leq z x), (Leq z y); try reflexivity.
      subst. exfalso. apply Hy. left. reflexivity.
    - rewrite IH1 by exact HN. apply IH2. eapply Permutation_NoDup; eassumption.
  Qed.

  Lemma esum_mul_l dim ls f g a : indep f ls -> esum dim ls (fun b => f b *! g b) a = f a *! esum dim ls g a.
  Proof.
    revert a. induction ls as [|l r IH]; intros a Hf; [reflexivity|].
    rewrite !esum_cons, <- nsum_mul_l. apply nsum_ext. intros i _.
    rewrite IH by (eapply indep_incl; [|exact Hf]; intros x Hx; right; exact Hx).
    f_equal. eapply indep_upd; [exact Hf|left; reflexivity].
  Qed.

  Lemma esum_mul_r dim ls f g a : indep g ls -> esum dim ls (fun b => f b *! g b) a = esum dim ls f a *! g a.
  Proof.
    intros H. rewrite (@esum_ext dim ls _ (fun b => g b *! f b)) by (intros; ring).
    rewrite esum_mul_l by exact H. ring.
  Qed.

  Lemma esum_add dim ls f g a : esum dim ls (fun b => f b +! g b) a = esum dim ls f a +! esum dim ls g a.
  Proof.
    revert a. induction ls as [|l r IH]; intros a; [reflexivity|].
    rewrite !esum_cons, <- nsum_add. apply nsum_ext. intros i _. apply IH.
  Qed.

  Lemma esum_const_mul dim ls c f a : esum dim ls (fun b => c *! f b) a = c *! esum dim ls f a.
  Proof. apply (@esum_mul_l dim ls (fun _ => c) f a). intros ? ? _. reflexivity. Qed.

  (** *** sums over a block of labels as sums over multi-indices *)
  Fixpoint binds (a : asg) (ls : list L) (vs : list nat) : asg :=
    match ls, vs with
    | l :: r, v :: w => binds (upd a l v) r w
    | _, _ => a
    end.

  Lemma binds_other a ls vs x : ~ In x ls -> binds a ls vs x = a x.
  Proof.
    revert a vs. induction ls as [|l r IH]; intros a vs Hx; [reflexivity|].
    destruct vs as [|v w]; [reflexivity|]. cbn [binds]. rewrite IH by (intros K; apply Hx; right; exact K).
    apply upd_other. intros ->. apply Hx. left. reflexivity.
  Qed.

  Lemma map_binds a ls vs : NoDup ls -> length vs = length ls -> map (binds a ls vs) ls = vs.
  Proof.
    revert a vs. induction ls as [|l r IH]; intros a vs HN Hl; destruct vs as [|v w]; try discriminate; [reflexivity|].
    inversion HN as [|? ? Hx Hr]; subst. cbn [binds map]. f_equal.
    - rewrite binds_other by exact Hx. apply upd_same.
    - apply IH; [exact Hr|]. simpl in Hl. lia.
  Qed.

  Lemma map_binds_other a ls vs ms : (forall x, In x ms -> ~ In x ls) -> map (binds a ls vs) ms = map a ms.
  Proof. intros H. apply map_ext_in. intros x Hx. apply binds_other. auto. Qed.

  Lemma esum_idxs dim ls f a : esum dim ls f a = lsum (idxs (map dim ls)) (fun vs => f (binds a ls vs)).
  Proof.
    revert a. induction ls as [|l r IH]; intros a.
    - cbn. ring.
    - rewrite esum_cons. cbn [map]. rewrite lsum_idxs_cons. apply nsum_ext. intros i _. apply IH.
  Qed.

  (** *** contracting part of a network *)
  Lemma einsum_contract dim (C ls : list L) (part : list factor) (new : factor) (rest : list factor) a :
    NoDup (C ++ ls) ->
    (forall x, In x C -> ~ In x (net_labels rest)) ->
    (forall b, fval new b = esum dim C (netprod part) b) ->
    einsum Leq dim (C ++ ls) (part ++ rest) a = einsum Leq dim ls (new :: rest) a.
  Proof.
    intros HN Hr Hnew. unfold einsum.
    rewrite (@esum_perm dim (C ++ ls) (ls ++ C));
      [|eapply dep_ext; apply netprod_dep|exact HN|apply Permutation_app_comm].
    rewrite esum_app. apply esum_ext. intros b. rewrite netprod_cons, Hnew.
    rewrite <- esum_mul_r by (eapply dep_indep; [apply netprod_dep|exact Hr]).
    apply esum_ext. intros c. apply netprod_app.
  Qed.

  (** like the above, with range information on the labels that stay *)
  Lemma einsum_contract_range dim (C ls : list L) (part : list factor) (new : factor) (rest : list factor) a :
    NoDup (C ++ ls) ->
    (forall x, In x C -> ~ In x (net_labels rest)) ->
    (forall b, (forall x, ~ In x ls -> b x = a x) -> (forall x, In x ls -> b x < dim x) ->
       fval new b = esum dim C (netprod part) b) ->
    einsum Leq dim (C ++ ls) (part ++ rest) a = einsum Leq dim ls (new :: rest) a.
  Proof.
    intros HN Hr Hnew. unfold einsum.
    rewrite (@esum_perm dim (C ++ ls) (ls ++ C));
      [|eapply dep_ext; apply netprod_dep|exact HN|apply Permutation_app_comm].
    rewrite esum_app. apply esum_ext_range. intros b Hb1 Hb2. rewrite netprod_cons, Hnew by assumption.
    rewrite <- esum_mul_r by (eapply dep_indep; [apply netprod_dep|exact Hr]).
    apply esum_ext. intros c. apply netprod_app.
  Qed.

  Lemma einsum_perm_labels dim l1 l2 (net : list factor) a :
    NoDup l1 -> Permutation l1 l2 -> einsum Leq dim l1 net a = einsum Leq dim l2 net a.
  Proof. intros HN HP. apply esum_perm; auto. eapply dep_ext; apply netprod_dep. Qed.

  Lemma einsum_perm_net dim ls (n1 n2 : list factor) a :
    Permutation n1 n2 -> einsum Leq dim ls n1 a = einsum Leq dim ls n2 a.
  Proof. intros HP. apply esum_ext. intros b. apply netprod_perm. exact HP. Qed.

  (** *** the primitives, on labelled tensors *)
  Lemma fval_transpose (t : tensor R) (ls : list L) p d a :
    is_perm (length ls) p -> fval (transpose t p, gather d ls p) a = fval (t, ls) a.
  Proof.
    intros Hp. unfold fval. cbn [fst snd transpose elt]. f_equal.
    rewrite (@map_gather _ _ a d ls p 0) by (intros i Hi; apply (is_perm_In i Hp); exact Hi).
    apply unperm_gather. rewrite map_length. exact Hp.
  Qed.

  Lemma fval_outer (t u : tensor R) lt lu a :
    rank t = length lt -> fval (outer t u, lt ++ lu) a = fval (t, lt) a *! fval (u, lu) a.
  Proof.
    intros Hl. unfold fval. cbn [fst snd outer elt]. rewrite map_app.
    rewrite Hl, <- (map_length a lt), firstn_app, skipn_app, firstn_all, skipn_all, Nat.sub_diag.
    cbn [firstn skipn]. rewrite app_nil_r. reflexivity.
  Qed.

  (** labels left by np.tensordot *)
  Definition free_labels (d : L) (ls : list L) (ax : list nat) : list L := gather d ls (free_axes (length ls) ax).

  Lemma fval_unperm_split (t : tensor R) (ls : list L) ax d a C vs :
    NoDup ax -> (forall i, In i ax -> i < length ls) -> gather d ls ax = C -> NoDup C ->
    (forall x, In x C -> ~ In x (free_labels d ls ax)) -> length vs = length C ->
    elt t (unperm 0 (free_axes (length ls) ax ++ ax) (map a (free_labels d ls ax) ++ vs))
    = fval (t, ls) (binds a C vs).
  Proof.
    intros Na Ba EC NC Hd Hl. unfold fval. cbn [fst snd]. f_equal.
    pose proof (@free_axes_perm (length ls) ax Na Ba) as Hp.
    rewrite <- (@map_binds_other a C vs (free_labels d ls ax)) by (intros x Hx K; exact (Hd x K Hx)).
    rewrite <- (@map_binds a C vs NC Hl) at 2. rewrite <- EC at 3. unfold free_labels.
    rewrite <- map_app, <- gather_app.
    rewrite (@map_gather _ _ (binds a C vs) d ls _ 0) by (intros i Hi; apply (is_perm_In i Hp); exact Hi).
    apply unperm_gather. rewrite map_length. exact Hp.
  Qed.

  Lemma fval_tensordot dim (t u : tensor R) lt lu ax bx d C a :
    fits dim (t, lt) -> rank u = length lu ->
    NoDup ax -> NoDup bx -> (forall i, In i ax -> i < length lt) -> (forall i, In i bx -> i < length lu) ->
    gather d lt ax = C -> gather d lu bx = C -> NoDup C ->
    (forall x, In x C -> ~ In x (free_labels d lt ax)) -> (forall x, In x C -> ~ In x (free_labels d lu bx)) ->
    fval (tensordot t u ax bx, free_labels d lt ax ++ free_labels d lu bx) a
    = esum dim C (netprod [(t, lt); (u, lu)]) a.
  Proof.
    intros Ft Ru Na Nb Ba Bb Ea Eb NC Da Db. rewrite esum_idxs. unfold fval at 1. cbn [fst snd tensordot elt].
    assert (rank t = length lt) as Rt by (unfold rank; unfold fits in Ft; cbn in Ft; rewrite Ft, map_length; reflexivity).
    rewrite Rt, Ru. unfold fits in Ft. cbn [fst snd] in Ft.
    rewrite Ft. rewrite <- (@map_gather _ _ dim d lt ax 0) by exact Ba. rewrite Ea.
    apply lsum_ext. intros vs Hvs. apply In_idxs in Hvs. apply valid_length in Hvs. rewrite map_length in Hvs.
    rewrite map_app.
    assert (length (free_axes (length lt) ax) = length (map a (free_labels d lt ax))) as El
      by (unfold free_labels; rewrite map_length, gather_length; reflexivity).
    assert (firstn (length (free_axes (length lt) ax)) (map a (free_labels d lt ax) ++ map a (free_labels d lu bx))
            = map a (free_labels d lt ax)) as E1
      by (rewrite El, firstn_app, firstn_all, Nat.sub_diag; cbn [firstn]; apply app_nil_r).
    assert (skipn (length (free_axes (length lt) ax)) (map a (free_labels d lt ax) ++ map a (free_labels d lu bx))
            = map a (free_labels d lu bx)) as E2
      by (rewrite El, skipn_app, skipn_all, Nat.sub_diag; reflexivity).
    rewrite E1, E2.
    rewrite (@fval_unperm_split t lt ax d a C vs), (@fval_unperm_split u lu bx d a C vs) by assumption.
    unfold netprod. rewrite !lprod_cons, lprod_nil. ring.
  Qed.

  Lemma fval_trace2 dim (t : tensor R) ls i j d c a :
    fits dim (t, ls) -> i < length ls -> j < length ls -> i <> j ->
    nth i ls d = c -> nth j ls d = c -> ~ In c (free_labels d ls [i; j]) ->
    fval (trace2 t i j, free_labels d ls [i; j]) a = esum dim [c] (fval (t, ls)) a.
  Proof.
    intros Ft Hi Hj Hij Ei Ej Hc. rewrite esum_cons. unfold fval at 1. cbn [fst snd trace2 elt].
    unfold fits in Ft. cbn [fst snd] in Ft.
    assert (nth i (shape t) 0 = dim c) as Ed.
    { rewrite Ft. rewrite (nth_indep _ 0 (dim d)) by (rewrite map_length; exact Hi). rewrite map_nth, Ei. reflexivity. }
    rewrite Ed. apply nsum_ext. intros v _. rewrite esum_nil. unfold fval. cbn [fst snd]. f_equal.
    unfold rank. rewrite Ft, map_length.
    assert (is_perm (length ls) (free_axes (length ls) [i; j] ++ [i; j])) as Hp.
    { apply free_axes_perm.
      - constructor; [intros [K|[]]; congruence | constructor; [intros [] | constructor]].
      - intros k [<-|[<-|[]]]; assumption. }
    rewrite <- (@map_ext_in _ _ (upd a c v) a (free_labels d ls [i; j]))
      by (intros x Hx; apply upd_other; intros ->; contradiction).
    assert ([v; v] = map (upd a c v) (gather d ls [i; j])) as Ev.
    { cbn. rewrite Ei, Ej, upd_same. reflexivity. }
    rewrite Ev. unfold free_labels. rewrite <- map_app, <- gather_app.
    rewrite (@map_gather _ _ (upd a c v) d ls _ 0) by (intros k Hk; apply (is_perm_In k Hp); exact Hk).
    apply unperm_gather. rewrite map_length. exact Hp.
  Qed.

  (** shapes of the results *)
  Lemma fits_transpose dim (t : tensor R) ls p d :
    (forall i, In i p -> i < length ls) -> fits dim (t, ls) -> fits dim (transpose t p, gather d ls p).
  Proof.
    unfold fits. cbn. intros Hp ->. symmetry. apply map_gather. exact Hp.
  Qed.
  Lemma fits_outer dim (t u : tensor R) lt lu :
    fits dim (t, lt) -> fits dim (u, lu) -> fits dim (outer t u, lt ++ lu).
  Proof. unfold fits. cbn. intros -> ->. rewrite map_app. reflexivity. Qed.
  Lemma fits_rank dim (t : tensor R) ls : fits dim (t, ls) -> rank t = length ls.
  Proof. unfold fits, rank. cbn. intros ->. apply map_length. Qed.
  Lemma fits_tensordot dim (t u : tensor R) lt lu ax bx d :
    fits dim (t, lt) -> fits dim (u, lu) ->
    fits dim (tensordot t u ax bx, free_labels d lt ax ++ free_labels d lu bx).
  Proof.
    intros Ht Hu. pose proof (fits_rank Ht) as Rt. pose proof (fits_rank Hu) as Ru.
    unfold fits in *. cbn [fst snd tensordot shape] in *. rewrite Rt, Ru, Ht, Hu, map_app.
    unfold free_labels. f_equal; symmetry; apply map_gather; intros i Hi; apply In_free_axes in Hi; tauto.
  Qed.
  Lemma fits_trace2 dim (t : tensor R) ls i j d :
    fits dim (t, ls) -> fits dim (trace2 t i j, free_labels d ls [i; j]).
  Proof.
    intros Ht. pose proof (fits_rank Ht) as Rt. unfold fits in *. cbn [fst snd trace2 shape] in *.
    rewrite Rt, Ht. unfold free_labels. symmetry. apply map_gather. intros k Hk. apply In_free_axes in Hk. tauto.
  Qed.

  (** equal tensors have equal labelled values, for in-range assignments *)
  Lemma fval_teq (t u : tensor R) ls a : teq t u -> valid (map a ls) (shape t) -> fval (t, ls) a = fval (u, ls) a.
  Proof. intros [_ H] Hv. apply H. exact Hv. Qed.

  Lemma valid_map_asg dim ls a : (forall x, In x ls -> a x < dim x) -> valid (map a ls) (map dim ls).
  Proof.
    induction ls as [|l r IH]; cbn; intros H; constructor; [apply H; left; reflexivity|].
    apply IH. intros x Hx. apply H. right. exact Hx.
  Qed.
End EF.
