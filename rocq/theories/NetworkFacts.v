(** * NetworkFacts: rewriting a labelled network without changing its value *)
From Verif Require Import Prelude Algebra Tensor TensorFacts Einsum EinsumFacts.
Set Implicit Arguments.
Unset Strict Implicit.

Lemma gather_perm A (d : A) l p : is_perm (length l) p -> Permutation (gather d l p) l.
Proof.
  intros Hp. rewrite <- (gather_seq d l) at 2. unfold gather. apply Permutation_map. exact Hp.
Qed.

Section NF.
  Variable L : Type.
  Variable Leq : forall x y : L, {x = y} + {x <> y}.
  Context {R : csr}.
  Add Ring Rring : (rsr R).
  Notation asg := (asg L).
  Notation factor := (factor L R).
  Notation esum := (esum Leq).
  Notation upd := (upd Leq).
  Notation cnt := (count_occ Leq).
  Notation repeated := (repeated Leq).
  Notation value := (value Leq).
  Implicit Types (a b : asg) (dim : L -> nat).

  Lemma In_repeated ls x : In x (repeated ls) <-> 2 <= cnt ls x.
  Proof.
    unfold Einsum.repeated. rewrite nodup_In, filter_In, Nat.leb_le. split; [tauto|].
    intros H. split; [|exact H]. apply (count_occ_In Leq). lia.
  Qed.

  Lemma NoDup_repeated ls : NoDup (repeated ls).
  Proof. apply NoDup_nodup. Qed.

  Lemma cnt_perm ls ls' x : Permutation ls ls' -> cnt ls x = cnt ls' x.
  Proof. intros H. rewrite (Permutation_count_occ Leq) in H. apply H. Qed.

  Lemma repeated_perm ls ls' : Permutation ls ls' -> Permutation (repeated ls) (repeated ls').
  Proof.
    intros H. apply NoDup_Permutation; try apply NoDup_repeated.
    intros x. rewrite !In_repeated, (cnt_perm x H). reflexivity.
  Qed.

  Lemma cnt_notin ls x : ~ In x ls -> cnt ls x = 0.
  Proof. apply count_occ_not_In. Qed.
  Lemma cnt_NoDup_in ls x : NoDup ls -> In x ls -> cnt ls x = 1.
  Proof. intros H. apply (NoDup_count_occ' Leq). exact H. Qed.

  Lemma repeated_pairs C M : NoDup C -> (forall x, In x C -> ~ In x M) ->
    Permutation (repeated (C ++ C ++ M)) (C ++ repeated M).
  Proof.
    intros HC Hd. apply NoDup_Permutation.
    - apply NoDup_repeated.
    - apply NoDup_app_iff. repeat split; auto using NoDup_repeated.
      intros x Hx K. apply In_repeated in K. rewrite cnt_notin in K by auto. lia.
    - intros x. rewrite In_repeated, in_app_iff, In_repeated, !count_occ_app.
      destruct (in_dec Leq x C) as [Hx|Hx].
      + rewrite (cnt_NoDup_in HC Hx), (cnt_notin (Hd x Hx)). split; [auto|lia].
      + rewrite (cnt_notin Hx). split; [auto|]. intros [K|K]; [contradiction|lia].
  Qed.

  Lemma net_labels_app (n1 n2 : list factor) : net_labels (n1 ++ n2) = net_labels n1 ++ net_labels n2.
  Proof. unfold net_labels. apply flat_map_app. Qed.
  Lemma net_labels_cons (x : factor) net : net_labels (x :: net) = snd x ++ net_labels net.
  Proof. reflexivity. Qed.
  Lemma net_labels_perm (n1 n2 : list factor) : Permutation n1 n2 -> Permutation (net_labels n1) (net_labels n2).
  Proof. unfold net_labels. apply Permutation_flat_map. Qed.

  Lemma value_perm dim (n1 n2 : list factor) a : Permutation n1 n2 -> value dim n1 a = value dim n2 a.
  Proof.
    intros H. unfold Einsum.value. rewrite (einsum_perm_net Leq dim _ a H).
    apply einsum_perm_labels; [apply NoDup_repeated|]. apply repeated_perm, net_labels_perm, H.
  Qed.

  Lemma value_ext_dim dim dim' (net : list factor) a : (forall x, In x (net_labels net) -> dim x = dim' x) ->
    value dim net a = value dim' net a.
  Proof.
    intros H. unfold Einsum.value, einsum. apply esum_ext_dim. intros x Hx. apply H.
    apply In_repeated in Hx. apply (count_occ_In Leq). lia.
  Qed.

  (** the value only looks at the open labels *)
  Lemma value_open dim (net : list factor) a b :
    (forall x, In x (net_labels net) -> cnt (net_labels net) x = 1 -> a x = b x) ->
    value dim net a = value dim net b.
  Proof.
    intros H. unfold Einsum.value, einsum. eapply esum_dep; [apply netprod_dep|].
    intros x Hx. apply filter_In in Hx. destruct Hx as [Hx Hr].
    apply H; [exact Hx|]. destruct (in_dec Leq x (repeated (net_labels net))) as [|Hn]; [discriminate|].
    rewrite In_repeated in Hn. apply (count_occ_In Leq) in Hx. lia.
  Qed.

  (** replacing factors by others with the same labels and entries *)
  Lemma value_ext dim (n1 n2 : list factor) a :
    Permutation (net_labels n1) (net_labels n2) -> (forall b, netprod n1 b = netprod n2 b) ->
    value dim n1 a = value dim n2 a.
  Proof.
    intros HL HP. unfold Einsum.value.
    rewrite (@einsum_perm_labels _ Leq R dim _ _ n1 a (NoDup_repeated _) (repeated_perm HL)).
    apply esum_ext. exact HP.
  Qed.

  (** contracting a part of a network over labels [C] that occur twice in it *)
  Lemma value_contract dim (net part rest : list factor) (new : factor) C a :
    Permutation net (part ++ rest) ->
    Permutation (net_labels part) (C ++ C ++ snd new) ->
    NoDup C -> (forall x, In x C -> ~ In x (snd new)) -> (forall x, In x C -> ~ In x (net_labels rest)) ->
    (forall b, (forall x, ~ In x (repeated (net_labels (new :: rest))) -> b x = a x) ->
               (forall x, In x (repeated (net_labels (new :: rest))) -> b x < dim x) ->
               fval new b = esum dim C (netprod part) b) ->
    value dim net a = value dim (new :: rest) a.
  Proof.
    intros Hn Hp HC D1 D2 Hf. rewrite (value_perm dim a Hn). unfold Einsum.value.
    assert (Permutation (repeated (net_labels (part ++ rest))) (C ++ repeated (net_labels (new :: rest)))) as HL.
    { rewrite net_labels_app, net_labels_cons. rewrite <- repeated_pairs.
      - apply repeated_perm. rewrite Hp, <- !app_assoc. reflexivity.
      - exact HC.
      - intros x Hx. rewrite in_app_iff. intros [K|K]; [exact (D1 x Hx K)|exact (D2 x Hx K)]. }
    rewrite (einsum_perm_labels Leq dim _ a (NoDup_repeated _) HL).
    apply einsum_contract_range; [|exact D2|exact Hf].
    eapply Permutation_NoDup; [exact HL|apply NoDup_repeated].
  Qed.

  Lemma labels_split (d : L) ls ax :
    NoDup ax -> (forall i, In i ax -> i < length ls) ->
    Permutation ls (gather d ls ax ++ free_labels d ls ax).
  Proof.
    intros HN Hb. symmetry. unfold free_labels. rewrite <- gather_app. apply gather_perm.
    apply free_axes_perm'; assumption.
  Qed.

  (** pairwise contraction *)
  Theorem value_tensordot dim (t u : tensor R) lt lu ax bx d rest net a :
    fits dim (t, lt) -> fits dim (u, lu) ->
    NoDup ax -> NoDup bx -> (forall i, In i ax -> i < length lt) -> (forall i, In i bx -> i < length lu) ->
    gather d lt ax = gather d lu bx -> NoDup (gather d lt ax) ->
    (forall x, In x (gather d lt ax) -> ~ In x (free_labels d lt ax ++ free_labels d lu bx ++ net_labels rest)) ->
    Permutation net ((t, lt) :: (u, lu) :: rest) ->
    value dim net a
    = value dim ((tensordot t u ax bx, free_labels d lt ax ++ free_labels d lu bx) :: rest) a.
  Proof.
    intros Ft Fu Na Nb Ba Bb EC NC Dj Hnet.
    apply (@value_contract dim net [(t, lt); (u, lu)] rest _ (gather d lt ax) a).
    - exact Hnet.
    - unfold net_labels. cbn [flat_map snd app]. rewrite app_nil_r.
      rewrite (@labels_split d lt ax Na Ba) at 1. rewrite (@labels_split d lu bx Nb Bb) at 1. rewrite <- EC.
      rewrite <- !app_assoc. apply Permutation_app_head.
      rewrite (app_assoc _ (gather d lt ax)).
      rewrite (Permutation_app_comm (free_labels d lt ax) (gather d lt ax)).
      rewrite <- app_assoc. reflexivity.
    - exact NC.
    - intros x Hx K. cbn [snd] in K. apply (Dj x Hx). rewrite app_assoc. apply in_or_app. left. exact K.
    - intros x Hx K. apply (Dj x Hx). apply in_or_app. right. apply in_or_app. right. exact K.
    - intros b _ _. apply fval_tensordot; auto.
      + apply (fits_rank Fu).
      + intros x Hx K. apply (Dj x Hx). apply in_or_app. left. exact K.
      + intros x Hx K. apply (Dj x Hx). apply in_or_app. right. apply in_or_app. left. exact K.
  Qed.

  (** outer product *)
  Theorem value_outer dim (t u : tensor R) lt lu rest net a :
    fits dim (t, lt) ->
    Permutation net ((t, lt) :: (u, lu) :: rest) ->
    value dim net a = value dim ((outer t u, lt ++ lu) :: rest) a.
  Proof.
    intros Ft Hnet. rewrite (value_perm dim a Hnet). apply value_ext.
    - rewrite !net_labels_cons. cbn [snd]. rewrite app_assoc. reflexivity.
    - intros b. rewrite !netprod_cons, fval_outer by (apply (fits_rank Ft)). ring.
  Qed.

  (** trace *)
  Theorem value_trace2 dim (t : tensor R) ls i j d rest net a :
    fits dim (t, ls) -> i < length ls -> j < length ls -> i <> j ->
    nth i ls d = nth j ls d ->
    ~ In (nth i ls d) (free_labels d ls [i; j] ++ net_labels rest) ->
    Permutation net ((t, ls) :: rest) ->
    value dim net a = value dim ((trace2 t i j, free_labels d ls [i; j]) :: rest) a.
  Proof.
    intros Ft Hi Hj Hij Eij Dj Hnet.
    apply (@value_contract dim net [(t, ls)] rest _ [nth i ls d] a).
    - exact Hnet.
    - unfold net_labels. cbn [flat_map snd]. rewrite app_nil_r.
      rewrite (@labels_split d ls [i; j]) at 1.
      + cbn [gather map app]. rewrite <- Eij. reflexivity.
      + constructor; [intros [K|[]]; congruence | constructor; [intros [] | constructor]].
      + intros k [<-|[<-|[]]]; assumption.
    - repeat constructor. intros [].
    - intros x [<-|[]] K. apply Dj. apply in_or_app. left. exact K.
    - intros x [<-|[]] K. apply Dj. apply in_or_app. right. exact K.
    - intros b _ _. rewrite (@fval_trace2 _ Leq R dim t ls i j d (nth i ls d) b Ft Hi Hj Hij eq_refl).
      + apply esum_ext. intros c. unfold netprod. rewrite lprod_cons, lprod_nil. ring.
      + symmetry. exact Eij.
      + intros K. apply Dj. apply in_or_app. left. exact K.
  Qed.

  Theorem value_transpose dim (t : tensor R) ls p d rest net a :
    is_perm (length ls) p -> Permutation net ((t, ls) :: rest) ->
    value dim net a = value dim ((transpose t p, gather d ls p) :: rest) a.
  Proof.
    intros Hp Hnet. rewrite (value_perm dim a Hnet). apply value_ext.
    - rewrite !net_labels_cons. cbn [snd]. apply Permutation_app_tail. symmetry. apply gather_perm. exact Hp.
    - intros b. rewrite !netprod_cons, fval_transpose by exact Hp. reflexivity.
  Qed.

  Lemma binds_agree a b ES vs x :
    length vs = length ES -> In x ES -> binds Leq a ES vs x = binds Leq b ES vs x.
  Proof.
    revert a b vs. induction ES as [|l r IH]; intros a b vs Hl Hx; [contradiction|].
    destruct vs as [|v w]; [discriminate|]. cbn [binds].
    destruct (in_dec Leq x r) as [Hr|Hr]; [apply IH; [simpl in Hl; lia|exact Hr]|].
    destruct Hx as [->|Hx]; [|contradiction].
    rewrite !binds_other by exact Hr. rewrite !upd_same. reflexivity.
  Qed.

  (** fusing the labels [ES] (each occurring twice in [part]) into one label [f] *)
  Theorem value_fuse dim dim' (part part' rest net net' : list factor) ES f M a :
    Permutation net (part ++ rest) -> Permutation net' (part' ++ rest) ->
    Permutation (net_labels part) (ES ++ ES ++ M) -> Permutation (net_labels part') ([f; f] ++ M) ->
    NoDup ES -> (forall x, In x ES -> ~ In x (M ++ net_labels rest)) -> ~ In f (M ++ net_labels rest) ->
    dim' f = nprod (map dim ES) -> (forall x, In x (M ++ net_labels rest) -> dim' x = dim x) ->
    (forall b, (forall x, In x (f :: repeated (M ++ net_labels rest)) -> b x < dim' x) ->
       (forall x, ~ In x (f :: repeated (M ++ net_labels rest)) -> b x = a x) ->
       netprod part' b = netprod part (binds Leq b ES (unravel (map dim ES) (b f)))) ->
    value dim net a = value dim' net' a.
  Proof.
    intros Hn Hn' HP HP' HE D Df Edim Edim' Hpp.
    rewrite (value_perm dim a Hn), (value_perm dim' a Hn'). unfold Einsum.value, einsum.
    set (M' := M ++ net_labels rest) in *.
    assert (Permutation (repeated (net_labels (part ++ rest))) (repeated M' ++ ES)) as H1.
    { rewrite net_labels_app. rewrite (Permutation_app_comm (repeated M') ES). rewrite <- repeated_pairs by assumption.
      apply repeated_perm. unfold M'. rewrite HP, <- !app_assoc. reflexivity. }
    assert (Permutation (repeated (net_labels (part' ++ rest))) (repeated M' ++ [f])) as H2.
    { rewrite net_labels_app. rewrite (Permutation_app_comm (repeated M') [f]).
      rewrite <- repeated_pairs.
      - apply repeated_perm. unfold M'. rewrite HP'. rewrite <- !app_assoc. reflexivity.
      - repeat constructor. intros [].
      - intros x [<-|[]]. exact Df. }
    assert (forall x, In x (repeated M') -> In x M') as Hrep
      by (intros x Hx; apply In_repeated in Hx; apply (count_occ_In Leq); lia).
    rewrite (@esum_perm _ Leq R dim _ _ _ a (dep_ext (@netprod_dep _ _ _)) (NoDup_repeated _) H1).
    rewrite (@esum_perm _ Leq R dim' _ _ _ a (dep_ext (@netprod_dep _ _ _)) (NoDup_repeated _) H2).
    rewrite !esum_app. rewrite (@esum_ext_dim _ Leq R dim' dim (repeated M')) by (intros x Hx; apply Edim', Hrep, Hx).
    apply esum_ext_range. intros b Hb1 Hb2.
    rewrite esum_cons, esum_idxs, Edim, <- nsum_unravel.
    apply nsum_ext. intros k Hk. rewrite esum_nil, !netprod_app. f_equal.
    - rewrite Hpp.
      + rewrite upd_same. apply netprod_dep. intros x Hx.
        assert (In x (ES ++ ES ++ M)) as Hx' by (eapply Permutation_in; [exact HP|exact Hx]).
        destruct (in_dec Leq x ES) as [HxE|HxE].
        * apply binds_agree; [|exact HxE].
          pose proof (unravel_valid _ Hk) as Hv. apply valid_length in Hv. rewrite map_length in Hv. exact Hv.
        * rewrite !binds_other by exact HxE. unfold Prelude.upd. destruct (Leq x f) as [->|]; [|reflexivity].
          exfalso. apply Df. unfold M'. apply in_or_app. left.
          rewrite !in_app_iff in Hx'. tauto.
      + intros x Hx. unfold Prelude.upd. destruct (Leq x f) as [->|Hne]; [rewrite Edim; exact Hk|].
        destruct Hx as [K|Hx]; [congruence|]. rewrite Edim' by (apply Hrep; exact Hx). apply Hb2. exact Hx.
      + intros x Hx. rewrite upd_other by (intros ->; apply Hx; left; reflexivity).
        apply Hb1. intros K. apply Hx. right. exact K.
    - apply netprod_dep. intros x Hx. 
      rewrite binds_other by (intros K; apply (D x K); unfold M'; apply in_or_app; right; exact Hx).
      symmetry. apply upd_other. intros ->. apply Df. unfold M'. apply in_or_app. right. exact Hx.
  Qed.
End NF.
