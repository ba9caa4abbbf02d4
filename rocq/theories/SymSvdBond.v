(** * SymSvdBond: tensors with a new bond that is filled block by block *)
From Coq Require Import Permutation Reals List Lia.
From Verif Require Import Prelude Algebra Tensor TensorFacts Res Charge ChargeFacts BlockSparse BlockSpec BstSpec ListFacts BlockFacts BlockDegen BlockReduce BlockMaps BlockTr BlockPart BstFacts BstConv BstDot SymSvd.
Import ListNotations.
Set Implicit Arguments.
Unset Strict Implicit.

(** the positions of the bond: block and number within the block *)
Definition bonds (ks : list nat) : list (nat * nat) := flat_map (fun n => map (pair n) (seq 0 (nth n ks 0))) (seq 0 (length ks)).
Lemma In_bonds ks p : In p (bonds ks) <-> fst p < length ks /\ snd p < nth (fst p) ks 0.
Proof.
  unfold bonds. rewrite in_flat_map. split.
  - intros (n & Hn & Hp). apply in_seq in Hn. apply in_map_iff in Hp as (j & <- & Hj). apply in_seq in Hj. cbn. lia.
  - intros [H1 H2]. exists (fst p). split; [apply in_seq; lia|]. apply in_map_iff. exists (snd p). split; [symmetry; apply surjective_pairing | apply in_seq; lia].
Qed.
Lemma NoDup_bonds ks : NoDup (bonds ks).
Proof.
  unfold bonds. generalize (seq_NoDup (length ks) 0). induction (seq 0 (length ks)) as [|n r IH]; cbn; intros H; [constructor|].
  inversion H as [|? ? H1 H2]; subst. apply NoDup_app_iff. repeat split.
  - apply FinFun.Injective_map_NoDup; [intros a b E; injection E; auto | apply seq_NoDup].
  - apply IH, H2.
  - intros p Hp Hp'. apply in_map_iff in Hp as (j & <- & Hj). apply in_flat_map in Hp' as (n' & Hn' & Hp'). apply in_map_iff in Hp' as (j' & E & _). congruence.
Qed.
Lemma map_bonds A (h : nat * nat -> A) ks : map h (bonds ks) = concat (map (fun n => map (fun j => h (n, j)) (seq 0 (nth n ks 0))) (seq 0 (length ks))).
Proof. unfold bonds. rewrite map_flat_map, <- flat_map_concat_map. apply flat_map_ext_in. intros n _. apply map_map. Qed.
Lemma flat_map_flat_map A B C (f : B -> list C) (g : A -> list B) l : flat_map f (flat_map g l) = flat_map (fun x => flat_map f (g x)) l.
Proof. induction l as [|x r IH]; cbn; [reflexivity|]. rewrite flat_map_app, IH. reflexivity. Qed.
Lemma flat_map_bonds A (h : nat * nat -> list A) ks :
  flat_map h (bonds ks) = concat (map (fun n => flat_map (fun j => h (n, j)) (seq 0 (nth n ks 0))) (seq 0 (length ks))).
Proof. unfold bonds. rewrite flat_map_flat_map, <- flat_map_concat_map. apply flat_map_ext_in. intros n _. apply flat_map_map. Qed.
Lemma nth_lens A (l : list (list A)) n : nth n (map (@length A) l) 0 = length (nth n l []).
Proof. apply (map_nth (@length A) l []). Qed.
Lemma map_const_repeat A (x : A) s k : map (fun _ => x) (seq s k) = repeat x k.
Proof. revert s. induction k; intros; cbn; [reflexivity|]. rewrite IHk. reflexivity. Qed.

Lemma bond_labels_bonds svs : bond_labels svs = map fst (bonds (map (@length R) svs)).
Proof.
  rewrite map_bonds. unfold bond_labels. rewrite map_length. f_equal. apply map_ext_in. intros n _. rewrite nth_lens. symmetry. apply (map_const_repeat n).
Qed.
Lemma list_by_index A (l : list A) d : l = map (fun n => nth n l d) (seq 0 (length l)).
Proof. symmetry. apply (gather_seq d l). Qed.
Lemma concat_bonds A (l : list (list A)) d : concat l = map (fun p => nth (snd p) (nth (fst p) l []) d) (bonds (map (@length A) l)).
Proof.
  rewrite map_bonds, map_length. rewrite (list_by_index l []) at 1. f_equal. apply map_ext. intros n. cbn [fst snd]. rewrite nth_lens. apply list_by_index.
Qed.
Lemma combine_by_index A B (x : list A) (y : list B) d e : length x = length y ->
  combine x y = map (fun n => (nth n x d, nth n y e)) (seq 0 (length x)).
Proof.
  revert y. induction x as [|a x IH]; intros [|b y] H; try discriminate; [reflexivity|]. cbn in H. cbn [length seq map combine nth]. f_equal.
  rewrite (IH y) by lia. rewrite <- seq_shift, map_map. reflexivity.
Qed.
Definition nomat A (z : A) : mat A := Mat 0 0 (fun _ _ => z).
Lemma u_data_bonds A (z : A) (us : list (mat A)) svs : length us = length svs ->
  (forall n, n < length svs -> length (nth n svs []) <= m_cols (nth n us (nomat z))) ->
  u_data us svs = flat_map (fun p => map (fun i => m_at (nth (fst p) us (nomat z)) i (snd p)) (seq 0 (m_rows (nth (fst p) us (nomat z))))) (bonds (map (@length R) svs)).
Proof.
  intros E H. rewrite flat_map_bonds, map_length. unfold u_data. rewrite (@combine_by_index _ _ us svs (nomat z) [] E), map_map, E. f_equal.
  apply map_ext_in. intros n Hn. apply in_seq in Hn. cbn [fst snd]. rewrite nth_lens, Nat.min_l by (apply H; lia). reflexivity.
Qed.
Lemma v_data_bonds A (z : A) (vs : list (mat A)) svs : length vs = length svs ->
  (forall n, n < length svs -> length (nth n svs []) <= m_rows (nth n vs (nomat z))) ->
  v_data vs svs = flat_map (fun p => map (fun i => m_at (nth (fst p) vs (nomat z)) (snd p) i) (seq 0 (m_cols (nth (fst p) vs (nomat z))))) (bonds (map (@length R) svs)).
Proof.
  intros E H. rewrite flat_map_bonds, map_length. unfold v_data. rewrite (@combine_by_index _ _ vs svs (nomat z) [] E), map_map, E. f_equal.
  apply map_ext_in. intros n Hn. apply in_seq in Hn. cbn [fst snd]. rewrite nth_lens, Nat.min_l by (apply H; lia). reflexivity.
Qed.

Section Bond.
  Context {G : chg} {K : csr}.
  Variables (qs : list G) (ks : list nat) (f : bool) (L : list (leg G)).
  Variable g : nat * nat -> nat -> K.
  Definition bond_leg : leg G := (map (fun p => nth (fst p) qs qid) (bonds ks), f).
  (** charge of the entries of L that belong to block n *)
  Definition partner (n : nat) : G := if f then nth n qs qid else qinv (nth n qs qid).
  Definition bond_data : list K := flat_map (fun p => map (g p) (seq 0 (length (sector L (partner (fst p)))))) (bonds ks).
  Notation nb := (length (bonds ks)).

  Lemma bond_charge b : b < nb -> qinv (charge_of [bond_leg] [b]) = partner (fst (nth b (bonds ks) (0, 0))).
  Proof.
    intros Hb. cbn [charge_of]. unfold leg_charge, partner, bond_leg. cbn [fst snd].
    rewrite (@nth_map_lt _ _ _ _ _ _ (0, 0)) by exact Hb. rewrite qcomm, qidl. destruct f; [apply qinv_inv | reflexivity].
  Qed.
  Lemma idxs_bond : idxs (ldims [bond_leg]) = map (fun b => [b]) (seq 0 nb).
  Proof.
    unfold ldims, bond_leg. cbn [map fst]. rewrite map_length. cbn [idxs]. rewrite flat_map_concat_map.
    cbn [map]. apply concat_single.
  Qed.
  Lemma bond_allowed : allowed (bond_leg :: L) = flat_map (fun b => map (cons b) (sector L (partner (fst (nth b (bonds ks) (0, 0)))))) (seq 0 nb).
  Proof.
    change (bond_leg :: L) with ([bond_leg] ++ L). rewrite allowed_app, idxs_bond, flat_map_map. apply flat_map_ext_in. intros b Hb. apply in_seq in Hb.
    rewrite bond_charge by lia. reflexivity.
  Qed.
  Lemma bond_data_map : bond_data = map (fun ix => g (nth (hd 0 ix) (bonds ks) (0, 0)) (index_of ixdec (tl ix) (sector L (partner (fst (nth (hd 0 ix) (bonds ks) (0, 0))))))) (allowed (bond_leg :: L)).
  Proof.
    rewrite bond_allowed, map_flat_map. unfold bond_data. rewrite (list_by_index (bonds ks) (0, 0)) at 1. rewrite flat_map_map.
    apply flat_map_ext_in. intros b Hb. rewrite map_map. cbn [hd tl]. set (p := nth b (bonds ks) (0, 0)). set (X := sector L (partner (fst p))).
    rewrite <- (@index_map _ ixdec X) by apply NoDup_sector. rewrite map_map. reflexivity.
  Qed.
  Lemma bond_data_length : length bond_data = length (allowed (bond_leg :: L)).
  Proof. rewrite bond_data_map. apply map_length. Qed.
  Lemma bond_entry b r : b < nb -> valid r (ldims L) ->
    entry (bond_leg :: L) bond_data (b :: r) =
    let p := nth b (bonds ks) (0, 0) in
    if qdec (charge_of L r) (partner (fst p)) then g p (index_of ixdec r (sector L (partner (fst p)))) else r0.
  Proof.
    intros Hb Hr. cbv zeta. destruct (qdec (charge_of L r) _) as [E|E].
    - assert (In (b :: r) (allowed (bond_leg :: L))) as Hi.
      { rewrite bond_allowed. apply in_flat_map. exists b. split; [apply in_seq; lia|]. apply in_map. apply In_sector. split; assumption. }
      rewrite entry_allowed by exact Hi. rewrite bond_data_map, nth_allowed by exact Hi. reflexivity.
    - apply entry_zero. intros H. apply E. rewrite <- (bond_charge Hb).
      change (bond_leg :: L) with ([bond_leg] ++ L) in H. change (b :: r) with ([b] ++ r) in H. rewrite charge_of_app in H by reflexivity.
      rewrite <- (qidl (charge_of L r)), <- (qinvl (charge_of [bond_leg] [b])), <- qassoc, H, qcomm. apply qidl.
  Qed.

  (** the tensor with the bond as first leg *)
  Variables (q : bc G) (cs : list (bc G)) (fs : list bool).
  Hypothesis Hq : bc_ok q.
  Hypothesis Rq : rep q = map (fun p => nth (fst p) qs qid) (bonds ks).
  Hypothesis Hcs : all_ok cs.
  Hypothesis Lcs : length cs = length fs.
  Hypothesis Ncs : cs <> [].
  Hypothesis EL : legs cs fs = L.
  Definition bond_tensor : bst G K := BST bond_data (q :: cs) (f :: fs) [[0]; seq 1 (length cs)].
  Lemma bond_elegs : elegs bond_tensor = bond_leg :: L.
  Proof. unfold elegs, bond_tensor. cbn [bcs bfs]. rewrite legs_cons, EL, Rq. reflexivity. Qed.
  Lemma bond_ldims : ldims (elegs bond_tensor) = nb :: ldims L.
  Proof. rewrite bond_elegs. unfold ldims at 1, bond_leg. cbn [map fst]. rewrite map_length. reflexivity. Qed.
  Lemma L_length : length L = length cs.
  Proof. rewrite <- EL. apply legs_length, Lcs. Qed.
  Lemma bond_wf : wf_bst bond_tensor.
  Proof.
    unfold wf_bst. rewrite bond_elegs. unfold bond_tensor. cbn [bcs bfs bdata bord length]. repeat split.
    - rewrite Lcs. reflexivity.
    - intros c [<-|Hc]; [exact Hq | apply Hcs, Hc].
    - apply bond_data_length.
    - cbn [concat app]. rewrite app_nil_r. change (0 :: seq 1 (length cs)) with (seq 0 (S (length cs))). apply Permutation_refl.
    - intros o [<-|[<-|[]]]; [discriminate|]. destruct cs; [congruence | discriminate].
  Qed.
  Lemma bond_groups : map (gather 0 (ldims (elegs bond_tensor))) (bord bond_tensor) = [[nb]; ldims L].
  Proof.
    rewrite bond_ldims. unfold bond_tensor. cbn [bord map]. f_equal. f_equal. rewrite <- seq_shift. unfold gather. rewrite map_map. cbn [nth].
    rewrite <- L_length, <- ldims_length. apply (gather_seq 0).
  Qed.
  Lemma bond_shape : shape (dense_of bond_tensor) = [nb; nprod (ldims L)].
  Proof. rewrite dense_shape, bond_groups. cbn. rewrite Nat.mul_1_r. reflexivity. Qed.
  Lemma bond_elt b i : b < nb -> i < nprod (ldims L) ->
    elt (dense_of bond_tensor) [b; i] =
    let p := nth b (bonds ks) (0, 0) in let r := unravel (ldims L) i in
    if qdec (charge_of L r) (partner (fst p)) then g p (index_of ixdec r (sector L (partner (fst p)))) else r0.
  Proof.
    intros Hb Hi. rewrite dense_elt, bond_groups, bond_elegs. unfold bond_tensor. cbn [bord bdata concat app]. rewrite app_nil_r.
    cbn [split_index]. rewrite app_nil_r. assert (unravel [nb] b = [b]) as ->.
    { cbn [unravel nprod fold_right]. rewrite Nat.div_1_r. reflexivity. }
    cbn [app]. change (0 :: seq 1 (length cs)) with (seq 0 (S (length cs))). rewrite unperm_seq.
    - apply bond_entry; [exact Hb | apply (@unravel_valid (ldims L) i Hi)].
    - cbn [length]. rewrite unravel_len, ldims_length, L_length. reflexivity.
  Qed.
End Bond.
