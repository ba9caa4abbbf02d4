(** * GraphValue: the value of the network is unchanged by contractions and reordering *)
From Verif Require Import Prelude Algebra Tensor TensorFacts Einsum EinsumFacts NetworkFacts Graph GraphBase GraphContract GraphOps.
Set Implicit Arguments.
Unset Strict Implicit.

Lemma count_le_2 A (l : list A) (x y z : A) : length l <= 2 -> In x l -> In y l -> In z l -> x <> y -> x <> z -> y = z.
Proof.
  destruct l as [|a [|b [|c l]]]; cbn; try lia; intros _; intuition congruence.
Qed.

Section GV.
  Context {R : csr}.
  Notation st := (@st R).
  Notation M := (@M R).
  Notation node := (@node R).
  Implicit Types (s : st) (e : eid).

  (** value of the network made of the nodes S: edges are the labels, their dimensions the ranges *)
  Definition netval s (S : list nid) (a : asg nat) : R := value Nat.eq_dec (edim s) (net_of s S) a.

  (** [a] gives every open label of the network S a value below its dimension *)
  Definition open_ok s (S : list nid) (a : asg nat) : Prop :=
    forall x, count_occ Nat.eq_dec (net_labels (net_of s S)) x = 1 -> a x < edim s x.

  Lemma net_of_perm s S S' : Permutation S S' -> Permutation (net_labels (net_of s S)) (net_labels (net_of s S')).
  Proof.
    intros H. unfold net_of, net_labels. apply Permutation_flat_map. apply Permutation_map. exact H.
  Qed.
  Lemma open_ok_perm s S S' a : Permutation S S' -> open_ok s S a -> open_ok s S' a.
  Proof.
    intros H K x Hx. apply K. rewrite (cnt_perm Nat.eq_dec x (net_of_perm s H)). exact Hx.
  Qed.

  Lemma fac_fits s n : wf s -> fits (edim s) (fac s n).
  Proof.
    intros W. unfold fac. destruct (s_nodes s n) as [nd|] eqn:E; [apply (wf_fits W E)|reflexivity].
  Qed.

  Lemma netval_dim s S d a : wf s -> (forall n, In n S -> fits d (fac s n)) -> netval s S a = value Nat.eq_dec d (net_of s S) a.
  Proof.
    intros W H. unfold netval. apply value_ext_dim. intros x Hx. unfold net_labels, net_of in Hx.
    apply in_flat_map in Hx. destruct Hx as (f & Hf & Hx). apply in_map_iff in Hf. destruct Hf as (n & <- & Hn).
    apply (fits_agree (fac_fits n W) (H n Hn) Hx).
  Qed.

  Lemma netval_perm s S S' a : Permutation S S' -> netval s S a = netval s S' a.
  Proof. intros H. unfold netval. apply value_perm. unfold net_of. apply Permutation_map. exact H. Qed.

  Lemma net_of_ext s s' S : (forall m, In m S -> s_nodes s' m = s_nodes s m) -> net_of s' S = net_of s S.
  Proof. intros H. unfold net_of. apply map_ext_in. intros m Hm. unfold fac. rewrite (H m Hm). reflexivity. Qed.

  (** ** reordering *)
  Lemma reorder_value s s' n nd perm names S a :
    wf s -> wf s' -> s_nodes s n = Some nd -> is_perm (length (n_edges nd)) perm -> ~ In n S ->
    reorder_post s s' n nd perm names ->
    netval s (n :: S) a = netval s' (n :: S) a.
  Proof.
    intros W W' Hn Hp HnS (_ & _ & H3 & _).
    assert (s_nodes s' n = Some (Node (transpose (n_t nd) perm) (gather 0 (n_edges nd) perm) names)) as Hn'
      by (rewrite H3, Nat.eqb_refl; reflexivity).
    assert (forall m, In m S -> s_nodes s' m = s_nodes s m) as Hm.
    { intros m Hm. rewrite H3. destruct (Nat.eqb_spec m n) as [->|]; [contradiction|reflexivity]. }
    rewrite (@netval_dim s' (n :: S) (edim s)); [|exact W'|].
    2:{ intros m [<-|Hm']; [|unfold fac; rewrite (Hm m Hm'); apply (fac_fits m W)].
        rewrite (fac_node Hn'). cbn [n_t n_edges]. apply fits_transpose; [|apply (wf_fits W Hn)].
        intros i Hi. apply (is_perm_In i Hp). exact Hi. }
    unfold netval. cbn [net_of map]. fold (net_of s S) (net_of s' S). rewrite (net_of_ext Hm).
    rewrite (fac_node Hn), (fac_node Hn'). cbn [n_t n_edges].
    apply value_transpose; [exact Hp|reflexivity].
  Qed.

  (** ** pairwise contraction, given where the edges went *)
  Lemma tensordot_value s s' n1 n2 N d1 d2 ax1 ax2 nm S a :
    wf s -> wf s' -> s_nodes s n1 = Some d1 -> s_nodes s n2 = Some d2 -> n1 <> n2 ->
    NoDup ax1 -> NoDup ax2 -> (forall j, In j ax1 -> j < length (n_edges d1)) -> (forall j, In j ax2 -> j < length (n_edges d2)) ->
    gather 0 (n_edges d1) ax1 = gather 0 (n_edges d2) ax2 -> NoDup (gather 0 (n_edges d1) ax1) ->
    (forall j, j < length (n_edges d1) -> (In j ax1 <-> In (nth j (n_edges d1) 0) (gather 0 (n_edges d1) ax1))) ->
    (forall j, j < length (n_edges d2) -> (In j ax2 <-> In (nth j (n_edges d2) 0) (gather 0 (n_edges d1) ax1))) ->
    (forall e p, In e (gather 0 (n_edges d1) ax1) -> slot s p = Some e -> fst p = n1 \/ fst p = n2) ->
    s_nodes s' N = Some (Node (tensordot (n_t d1) (n_t d2) ax1 ax2) (free_labels 0 (n_edges d1) ax1 ++ free_labels 0 (n_edges d2) ax2) nm) ->
    (forall m, m <> n1 -> m <> n2 -> m <> N -> s_nodes s' m = s_nodes s m) ->
    ~ In n1 S -> ~ In n2 S -> ~ In N S ->
    netval s (n1 :: n2 :: S) a = netval s' (N :: S) a.
  Proof.
    intros W W' Hn1 Hn2 Hne Na1 Na2 Ba1 Ba2 EC NC Hax1 Hax2 Hjoin HN Hoth S1 S2 SN.
    assert (forall m, In m S -> s_nodes s' m = s_nodes s m) as Hm by (intros m Hm; apply Hoth; intros ->; contradiction).
    pose proof (wf_fits W Hn1) as F1. pose proof (wf_fits W Hn2) as F2.
    rewrite (@netval_dim s' (N :: S) (edim s)); [|exact W'|].
    2:{ intros m [<-|Hm']; [|unfold fac; rewrite (Hm m Hm'); apply (fac_fits m W)].
        rewrite (fac_node HN). cbn [n_t n_edges]. apply fits_tensordot; assumption. }
    unfold netval. cbn [net_of map]. fold (net_of s S) (net_of s' S). rewrite (net_of_ext Hm).
    rewrite (fac_node Hn1), (fac_node Hn2), (fac_node HN). cbn [n_t n_edges].
    apply value_tensordot; auto.
    intros x Hx K. rewrite !in_app_iff in K. destruct K as [K|[K|K]].
    - unfold free_labels, gather in K. apply in_map_iff in K. destruct K as (j & Ej & Hj). apply In_free_axes in Hj.
      destruct Hj as [Hj Hnj]. apply Hnj. apply (Hax1 j Hj). rewrite Ej. exact Hx.
    - unfold free_labels, gather in K. apply in_map_iff in K. destruct K as (j & Ej & Hj). apply In_free_axes in Hj.
      destruct Hj as [Hj Hnj]. apply Hnj. apply (Hax2 j Hj). rewrite Ej. exact Hx.
    - apply (In_net_labels S x W) in K. destruct K as (m & k & Hm' & Hs). destruct (Hjoin x (m, k) Hx Hs) as [E|E]; cbn in E; subst m; contradiction.
  Qed.

  Lemma NoDup_gather_inj (es ax : list nat) : NoDup (gather 0 es ax) -> NoDup ax.
  Proof. unfold gather. apply NoDup_map_inv. Qed.

  (** the general pairwise step: a new node holding the tensordot, then the edges moved *)
  Lemma pair_step s s1 s2 n1 n2 N names cut d1 d2 ax1 ax2 :
    wf s -> s_nodes s n1 = Some d1 -> s_nodes s n2 = Some d2 -> n1 <> n2 ->
    (forall j, In j ax1 -> j < length (n_edges d1)) -> (forall j, In j ax2 -> j < length (n_edges d2)) ->
    gather 0 (n_edges d1) ax1 = gather 0 (n_edges d2) ax2 -> Permutation (gather 0 (n_edges d1) ax1) cut -> NoDup cut ->
    (forall j, j < length (n_edges d1) -> In (nth j (n_edges d1) 0) cut -> In j ax1) ->
    (forall j, j < length (n_edges d2) -> In (nth j (n_edges d2) 0) cut -> In j ax2) ->
    new_node (tensordot (n_t d1) (n_t d2) ax1 ax2) names s = (s1, Some N) ->
    (length (seq (s_ne s) (rank (tensordot (n_t d1) (n_t d2) ax1 ax2))) = length (kept_of cut (n_edges d1)) + length (kept_of cut (n_edges d2)) ->
       forall dN, s_nodes s1 N = Some dN -> n_edges dN = seq (s_ne s) (rank (tensordot (n_t d1) (n_t d2) ax1 ax2)) -> remove_post cut n1 n2 N s1 s2 d1 d2 dN) ->
    wf s2 /\ N = s_nn s /\ s_nodes s N = None /\ s_nn s2 = S (s_nn s) /\
    (exists nms, s_nodes s2 N = Some (Node (tensordot (n_t d1) (n_t d2) ax1 ax2) (free_labels 0 (n_edges d1) ax1 ++ free_labels 0 (n_edges d2) ax2) nms)
        /\ length nms = rank (tensordot (n_t d1) (n_t d2) ax1 ax2)) /\
    (forall m, m <> n1 -> m <> n2 -> m <> N -> s_nodes s2 m = s_nodes s m) /\
    free_labels 0 (n_edges d1) ax1 ++ free_labels 0 (n_edges d2) ax2 = kept_of cut (n_edges d1) ++ kept_of cut (n_edges d2) /\
    (forall S a, NoDup (n1 :: n2 :: S) -> ~ In N S -> netval s (n1 :: n2 :: S) a = netval s2 (N :: S) a) /\
    (exists cut, Permutation (net_labels (net_of s [n1; n2])) (cut ++ cut ++ net_labels (net_of s2 [N]))) /\
    fits (edim s) (fac s2 N).
  Proof.
    intros W Hn1 Hn2 Hne Ba1 Ba2 EC PC NC Hax1 Hax2 Hnew Hrem.
    destruct (new_node_wf W Hnew) as (W1 & Hlon & -> & Hnone & Hnn & (nms & Hlen & _ & _ & HN) & Hold & Hedge & Hs1ne).
    assert (s_nn s <> n1) as N1 by (intros K; rewrite <- K, Hnone in Hn1; discriminate).
    assert (s_nn s <> n2) as N2 by (intros K; rewrite <- K, Hnone in Hn2; discriminate).
    assert (s_nodes s1 n1 = Some d1) as Hn1' by (rewrite Hold; auto).
    assert (s_nodes s1 n2 = Some d2) as Hn2' by (rewrite Hold; auto).
    assert (forall x, In x cut <-> In x (gather 0 (n_edges d1) ax1)) as Hcut
      by (intros x; split; apply Permutation_in; [symmetry|]; exact PC).
    assert (forall j, j < length (n_edges d1) -> (In j ax1 <-> In (nth j (n_edges d1) 0) cut)) as A1.
    { intros j Hj. split; [|apply Hax1; exact Hj]. intros K. apply Hcut. unfold gather. apply in_map_iff. exists j. auto. }
    assert (forall j, j < length (n_edges d2) -> (In j ax2 <-> In (nth j (n_edges d2) 0) cut)) as A2.
    { intros j Hj. split; [|apply Hax2; exact Hj]. intros K. apply Hcut. rewrite EC. unfold gather. apply in_map_iff. exists j. auto. }
    assert (forall e p, In e cut -> slot s p = Some e -> fst p = n1 \/ fst p = n2) as Hjoin.
    { intros e p He Hp. apply Hcut in He.
      assert (exists i j, slot s (n1, i) = Some e /\ slot s (n2, j) = Some e) as (i & j & Hi & Hj).
      { pose proof He as He'. rewrite EC in He'. unfold gather in He, He'. apply in_map_iff in He, He'.
        destruct He as (i & Ei & Hi). destruct He' as (j & Ej & Hj). exists i, j. split.
        - apply (slot_intro Hn1). rewrite <- Ei. apply nth_error_nth'. auto.
        - apply (slot_intro Hn2). rewrite <- Ej. apply nth_error_nth'. auto. }
      destruct (wf_slot W Hp) as (ed & E & _ & Hin & _).
      pose proof (live_in_ends W Hi E) as I1. pose proof (live_in_ends W Hj E) as I2.
      destruct (Nat.eq_dec (fst p) n1) as [|K1]; [auto|]. right.
      assert ((n2, j) = p) as <-; [|reflexivity].
      apply (@count_le_2 _ (ends ed) (n1, i) (n2, j) p); auto.
      - unfold ends. destruct (e_2 ed); cbn; lia.
      - congruence.
      - intros <-. apply K1. reflexivity. }
    destruct (@remove_post_wf _ cut n1 n2 (s_nn s) s1 s2 d1 d2 _ ax1 ax2 W1 Hlon Hn1' Hn2' HN N1 N2 A1 A2) as (W2 & H2N & H2old & H2nn & K1 & K2).
    { cbn [n_t tensordot shape]. reflexivity. }
    { intros Hl. apply Hrem; [exact Hl|exact HN|reflexivity]. }
    cbn [n_t n_names] in H2N.
    split; [exact W2|]. split; [reflexivity|]. split; [exact Hnone|]. split; [congruence|]. split; [exists nms; auto|].
    assert (forall m, m <> n1 -> m <> n2 -> m <> s_nn s -> s_nodes s2 m = s_nodes s m) as Hoth
      by (intros m M1 M2 M3; rewrite H2old, Hold by assumption; reflexivity).
    split; [exact Hoth|]. split; [rewrite K1, K2; reflexivity|].
    assert (NoDup (gather 0 (n_edges d1) ax1)) as NG by (apply (Permutation_NoDup (Permutation_sym PC) NC)).
    assert (NoDup ax1) as NA1 by (apply (NoDup_gather_inj NG)).
    assert (NoDup ax2) as NA2 by (apply (@NoDup_gather_inj (n_edges d2)); rewrite <- EC; exact NG).
    assert (forall es ax, NoDup ax -> (forall j, In j ax -> j < length es) -> Permutation es (gather 0 es ax ++ free_labels 0 es ax)) as Psplit.
    { intros es ax Nx Bx. unfold free_labels. rewrite <- gather_app. symmetry. apply gather_perm. apply free_axes_perm'; assumption. }
    split; [|split].
    2:{ exists (gather 0 (n_edges d1) ax1). cbn [net_of map]. rewrite !net_labels_cons, (fac_node Hn1), (fac_node Hn2), (fac_node H2N).
        cbn [snd net_labels flat_map n_edges]. rewrite !app_nil_r.
        rewrite (Psplit (n_edges d1) ax1) at 1 by assumption. rewrite (Psplit (n_edges d2) ax2) at 1 by assumption. rewrite <- EC.
        rewrite <- !app_assoc. apply Permutation_app_head.
        rewrite (app_assoc (free_labels 0 (n_edges d1) ax1)). rewrite (Permutation_app_comm (free_labels 0 (n_edges d1) ax1)).
        rewrite <- app_assoc. apply Permutation_app_head. reflexivity. }
    2:{ rewrite (fac_node H2N). cbn [n_t n_edges]. apply fits_tensordot; eapply wf_fits; eassumption. }
    intros S a HS HNS. apply NoDup_cons_iff in HS. destruct HS as [HS1 HS]. apply NoDup_cons_iff in HS. destruct HS as [HS2 HS].
    apply (@tensordot_value s s2 n1 n2 (s_nn s) d1 d2 ax1 ax2 nms S a); auto.
    - intros j Hj. rewrite (A1 j Hj), Hcut. reflexivity.
    - intros j Hj. rewrite (A2 j Hj), Hcut. reflexivity.
    - intros e p He. apply Hjoin. apply Hcut. exact He.
    - intros K. apply HS1. right. exact K.
  Qed.
End GV.
