(** * NconProof: the contraction loop of _jittable_ncon computes the Einstein sum. *)
From Coq Require Import ZArith.
From Verif Require Import Prelude Algebra Tensor TensorFacts Einsum EinsumFacts NetworkFacts Ncon NconFacts.
Set Implicit Arguments.
Unset Strict Implicit.
Open Scope list_scope.
Open Scope nat_scope.

Lemma zcount_app l1 l2 x : zcount (l1 ++ l2) x = zcount l1 x + zcount l2 x.
Proof. apply count_occ_app. Qed.
Lemma zcount_in ls x : In x ls <-> 0 < zcount ls x.
Proof. apply count_occ_In. Qed.
Lemma zcount_notin ls x : ~ In x ls <-> zcount ls x = 0.
Proof. apply count_occ_not_In. Qed.
Lemma zcount_nodup ls x : NoDup ls -> zcount ls x = if zmem x ls then 1 else 0.
Proof.
  intros N. destruct (zmem x ls) eqn:E.
  - apply zmem_In in E. apply zcount_in in E. pose proof (proj1 (NoDup_count_occ Z.eq_dec ls) N x).
    unfold zcount in *. lia.
  - apply zcount_notin, zmem_nIn, E.
Qed.
Lemma zcount_perm l1 l2 x : Permutation l1 l2 -> zcount l1 x = zcount l2 x.
Proof. intros P. unfold zcount. apply Permutation_count_occ, P. Qed.

Lemma filter_filter A (p q : A -> bool) l : filter p (filter q l) = filter (fun x => q x && p x) l.
Proof. induction l as [|x r IH]; simpl; [reflexivity|]. destruct (q x); simpl; [destruct (p x)|]; rewrite ?IH; reflexivity. Qed.

Lemma Forall2_in_r A B (P : A -> B -> Prop) l1 l2 y :
  Forall2 P l1 l2 -> In y l2 -> exists x, In (x, y) (combine l1 l2) /\ P x y.
Proof.
  induction 1 as [|a b l1 l2 H F IH]; intros Hy; [destruct Hy|].
  destruct Hy as [-> | Hy]; [exists a; split; [left; reflexivity | exact H]|].
  destruct (IH Hy) as (x & Hx & HP). exists x. split; [right; exact Hx | exact HP].
Qed.

Lemma filter_length_le A (p : A -> bool) l : length (filter p l) <= length l.
Proof. induction l as [|x r IH]; simpl; [lia|]. destruct (p x); simpl; lia. Qed.

Lemma filter_all A (p : A -> bool) l : (forall x, In x l -> p x = true) -> filter p l = l.
Proof. induction l as [|x r IH]; simpl; intros H; [reflexivity|]. rewrite H, IH; auto. Qed.

Lemma con_split (con C : list Z) : NoDup con -> NoDup C -> (forall l, In l C -> In l con) ->
  Permutation con (C ++ filter (fun l => negb (zmem l C)) con).
Proof.
  intros N NC I. apply NoDup_Permutation; [exact N| |].
  - apply NoDup_app_iff. repeat split; auto using NoDup_filter.
    intros x Hx Hf. apply filter_In in Hf. rewrite negb_true_iff, zmem_nIn in Hf. tauto.
  - intros x. rewrite in_app_iff, filter_In, negb_true_iff, zmem_nIn.
    split; [|intros [H|H]; [auto | tauto]]. intros H. destruct (in_dec Z.eq_dec x C); tauto.
Qed.

Lemma remove2 A (net : list A) p0 p1 x1 x2 :
  p0 < p1 -> nth_error net p0 = Some x1 -> nth_error net p1 = Some x2 ->
  Permutation net (x1 :: x2 :: remove_at p0 (remove_at p1 net)).
Proof.
  intros Hlt H1 H2.
  apply nth_error_split in H2. destruct H2 as (l1 & l2 & -> & L1).
  assert (remove_at p1 (l1 ++ x2 :: l2) = l1 ++ l2) as ->.
  { unfold remove_at. rewrite firstn_app, skipn_app, firstn_all2 by lia.
    replace (p1 - length l1) with 0 by lia. replace (S p1 - length l1) with 1 by lia.
    rewrite skipn_all2 by lia. cbn. rewrite app_nil_r. reflexivity. }
  rewrite nth_error_app1 in H1 by lia.
  apply nth_error_split in H1. destruct H1 as (m1 & m2 & -> & M1).
  assert (remove_at p0 ((m1 ++ x1 :: m2) ++ l2) = m1 ++ m2 ++ l2) as ->.
  { unfold remove_at. rewrite <- app_assoc, firstn_app, skipn_app, firstn_all2 by lia.
    replace (p0 - length m1) with 0 by lia. replace (S p0 - length m1) with 1 by lia.
    rewrite skipn_all2 by lia. cbn. rewrite app_nil_r. reflexivity. }
  rewrite <- !app_assoc. cbn [app].
  rewrite <- Permutation_middle. apply perm_skip.
  rewrite !app_assoc. symmetry. apply Permutation_cons_app. reflexivity.
Qed.

Lemma length_remove_at A (l : list A) p : p < length l -> S (length (remove_at p l)) = length l.
Proof. intros H. unfold remove_at. rewrite app_length, firstn_length, skipn_length. lia. Qed.

Ltac dif H := match type of H with context [if ?b then _ else _] => destruct b eqn:? end.
Ltac dig := match goal with |- context [if ?b then _ else _] => destruct b eqn:? end.

Section Proof.
  Context {R : csr}.
  Add Ring Rring : (rsr R).
  Variable iter : list Z -> list Z.
  Hypothesis iter_perm : forall l, Permutation (iter l) l.
  Variable dim : Z -> nat.
  Notation tensor := (tensor R).
  Notation factor := (@factor R).
  Notation esum := (esum Z.eq_dec).
  Notation einsum := (einsum Z.eq_dec).
  Implicit Types (net rest : list factor) (con ls : list Z) (batch : list (Z * nat)).

  Definition good (x : factor) : Prop := fits dim x /\ NoDup (snd x).

  Lemma flat_app net1 net2 : flat_of (net1 ++ net2) = flat_of net1 ++ flat_of net2.
  Proof. apply flat_map_app. Qed.
  Lemma flat_cons x net : flat_of (x :: net) = snd x ++ flat_of net.
  Proof. reflexivity. Qed.
  Lemma flat_perm net1 net2 : Permutation net1 net2 -> Permutation (flat_of net1) (flat_of net2).
  Proof. apply Permutation_flat_map. Qed.
  Lemma In_flat net l : In l (flat_of net) <-> exists x, In x net /\ In l (snd x).
  Proof. apply in_flat_map. Qed.

  (** the values [a] of the open labels are in range *)
  Definition in_range con net (a : Z -> nat) : Prop :=
    forall l, In l (flat_of net) -> ~ In l con -> a l < dim l.

  (** replacing some tensors by their partial sum *)
  Lemma contract_value net con part rest y C a :
    Permutation net (part ++ rest) -> NoDup con -> NoDup C -> (forall l, In l C -> In l con) ->
    (forall l, In l C -> ~ In l (flat_of rest)) ->
    (forall l, In l (snd y) -> In l (flat_of part) /\ ~ In l C) ->
    (forall b, (forall l, In l (snd y) -> b l < dim l) -> fval y b = esum dim C (netprod part) b) ->
    in_range con net a ->
    einsum dim con net a = einsum dim (filter (fun l => negb (zmem l C)) con) (rest ++ [y]) a.
  Proof.
    intros P Nc NC IC Dr Iy Fy Ra.
    pose proof (con_split Nc NC IC) as Pc.
    rewrite (einsum_perm_labels Z.eq_dec dim net a Nc Pc).
    rewrite (einsum_perm_net Z.eq_dec dim _ a P).
    rewrite (@einsum_contract_range _ _ _ dim C _ part y rest a).
    - apply einsum_perm_net. rewrite Permutation_app_comm. reflexivity.
    - eapply Permutation_NoDup; [exact Pc | exact Nc].
    - exact Dr.
    - intros b Hb1 Hb2. apply Fy. intros l Hl. apply Iy in Hl. destruct Hl as [Hl HnC].
      destruct (in_dec Z.eq_dec l con) as [i|i].
      + apply Hb2. apply filter_In. split; [exact i|]. apply negb_true_iff, zmem_nIn, HnC.
      + rewrite Hb1.
        * apply Ra; [|exact i]. eapply Permutation_in; [apply Permutation_sym, flat_perm, P|].
          rewrite flat_app. apply in_or_app. auto.
        * intros Hf. apply filter_In in Hf. tauto.
  Qed.

  (** ** The loop invariant *)
  Record inv net con batch : Prop := {
    i_good : forall x, In x net -> good x;
    i_nz : forall l, In l (flat_of net) -> l <> 0%Z;
    i_cnd : NoDup con;
    i_con : forall l, In l con <-> (0 < l)%Z /\ In l (flat_of net);
    i_bnd : NoDup (map fst batch);
    i_b : forall l c, In (l, c) batch <->
      c = zcount (flat_of net) l /\ (((0 < l)%Z /\ 2 < c) \/ ((l < 0)%Z /\ 2 <= c));
    i_pos : forall l, In l (flat_of net) -> (0 < l)%Z -> 2 <= zcount (flat_of net) l }.

  Lemma inv_batch net con batch l : inv net con batch ->
    (In l (map fst batch) <->
     ((0 < l)%Z /\ 2 < zcount (flat_of net) l) \/ ((l < 0)%Z /\ 2 <= zcount (flat_of net) l)).
  Proof.
    intros I. rewrite in_map_iff. split.
    - intros ([l' c] & E & H). simpl in E. subst l'. apply (i_b I) in H. destruct H as [-> H]. exact H.
    - intros H. exists (l, zcount (flat_of net) l). split; [reflexivity|]. apply (i_b I). auto.
  Qed.

  Lemma locs_gather c net :
    gather (Tensor [] (fun _ => r0), []) net (locs c net) = filter (fun x => zmem c (snd x)) net.
  Proof. apply (gather_filter _ (fun x : factor => zmem c (snd x))). Qed.

  Lemma count_tensors net l : (forall x, In x net -> good x) ->
    zcount (flat_of net) l = length (filter (fun x => zmem l (snd x)) net).
  Proof.
    induction net as [|x r IH]; intros H; [reflexivity|].
    rewrite flat_cons, zcount_app, IH by (intros; apply H; right; assumption).
    rewrite zcount_nodup by (apply H; left; reflexivity).
    cbn [filter]. destruct (zmem l (snd x)); reflexivity.
  Qed.

  Lemma locs_two net con batch c : inv net con batch -> In c con ->
    exists p0 p1 r x1 x2, locs c net = p0 :: p1 :: r /\ p0 < p1 /\
      nth_error net p0 = Some x1 /\ nth_error net p1 = Some x2 /\ In c (snd x1) /\ In c (snd x2).
  Proof.
    intros I Hc. apply (i_con I) in Hc. destruct Hc as [Hp Hc].
    pose proof (i_pos I Hc Hp) as H2. rewrite (count_tensors _ (i_good I)) in H2.
    rewrite <- locs_gather, gather_length in H2.
    assert (forall p, In p (locs c net) -> p < length net /\ zmem c (snd (nth p net (Tensor [] (fun _ => r0), []))) = true) as IL.
    { intros p Hpl. unfold locs in Hpl. rewrite filter_In, in_seq in Hpl. split; [lia | tauto]. }
    assert (Sorted.StronglySorted lt (locs c net)) as SS.
    { unfold locs. generalize (fun n => zmem c (snd (nth n net (Tensor [] (fun _ => r0), [])))).
      intros f. generalize 0 as k. generalize (length net) as m.
      induction m as [|m IH]; intros k; cbn [seq filter]; [constructor|].
      destruct (f k); [|apply IH]. constructor; [apply IH|].
      apply Forall_forall. intros j Hj. rewrite filter_In, in_seq in Hj. lia. }
    destruct (locs c net) as [|p0 [|p1 r]] eqn:El; simpl in H2; try lia.
    destruct (IL p0) as [L0 Z0]; [left; reflexivity|]. destruct (IL p1) as [L1 Z1]; [right; left; reflexivity|].
    inversion SS as [|? ? _ F]; subst. inversion F; subst.
    exists p0, p1, r, (nth p0 net (Tensor [] (fun _ => r0), [])), (nth p1 net (Tensor [] (fun _ => r0), [])).
    repeat split; auto.
    - apply nth_error_nth'; exact L0.
    - apply nth_error_nth'; exact L1.
    - apply zmem_In, Z0.
    - apply zmem_In, Z1.
  Qed.

  Lemma In_inter l1 l2 l : In l (label_intersection iter l1 l2) <-> In l l1 /\ In l l2.
  Proof.
    unfold label_intersection. rewrite (In_iter iter_perm), filter_In, nodup_In, zmem_In. tauto.
  Qed.
  Lemma NoDup_inter l1 l2 : NoDup (label_intersection iter l1 l2).
  Proof. unfold label_intersection. apply (NoDup_iter iter_perm). apply NoDup_filter, NoDup_nodup. Qed.

  (** one contraction of two tensors preserves the invariant: [cb] the common batch labels that
      stay, [cc] the common labels that are summed *)
  Lemma inv_step net con batch x1 x2 rest y cb cc batch' :
    inv net con batch -> Permutation net (x1 :: x2 :: rest) ->
    (forall l, In l cb <-> In l (map fst batch) /\ In l (snd x1) /\ In l (snd x2)) ->
    (forall l, In l cc <-> In l (snd x1) /\ In l (snd x2) /\ ~ In l cb) -> NoDup cc ->
    good y ->
    (forall l, In l (snd y) <-> In l cb \/ (In l (snd x1) /\ ~ In l (snd x2)) \/ (In l (snd x2) /\ ~ In l (snd x1))) ->
    batch' = batch_dec cb batch ->
    (forall b, (forall l, In l (snd y) -> b l < dim l) -> fval y b = esum dim cc (netprod [x1; x2]) b) ->
    inv (rest ++ [y]) (filter (fun o => negb (zmem o cc)) con) batch' /\
    (forall l, (l < 0)%Z -> (In l (flat_of net) <-> In l (flat_of (rest ++ [y])))) /\
    (forall a, in_range con net a ->
       einsum dim con net a = einsum dim (filter (fun o => negb (zmem o cc)) con) (rest ++ [y]) a).
  Proof.
    intros I P Hcb Hcc Ncc Gy Hy -> Fy.
    assert (good x1 /\ good x2) as [G1 G2].
    { split; apply (i_good I); (eapply Permutation_in; [apply Permutation_sym; exact P|]); simpl; auto. }
    assert (forall x, In x rest -> good x) as Gr.
    { intros x Hx. apply (i_good I). eapply Permutation_in; [apply Permutation_sym; exact P|]. simpl; auto. }
    assert (forall l, zcount (flat_of net) l = zcount (snd x1) l + zcount (snd x2) l + zcount (flat_of rest) l) as Cn.
    { intros l. rewrite (zcount_perm l (flat_perm P)), !flat_cons, !zcount_app. lia. }
    assert (forall l, zcount (flat_of (rest ++ [y])) l = zcount (flat_of rest) l + zcount (snd y) l) as Cn'.
    { intros l. rewrite flat_app, flat_cons, !zcount_app. cbn. lia. }
    destruct G1 as [F1 N1]. destruct G2 as [F2 N2]. destruct Gy as [Fity Ny].
    (* effect on the counts *)
    assert (forall l, In l cb -> S (zcount (flat_of (rest ++ [y])) l) = zcount (flat_of net) l) as Dcb.
    { intros l Hl. rewrite Cn, Cn'. apply Hcb in Hl as Hl'. rewrite (zcount_nodup l N1), (zcount_nodup l N2), (zcount_nodup l Ny).
      rewrite (proj2 (zmem_In l (snd x1))), (proj2 (zmem_In l (snd x2))), (proj2 (zmem_In l (snd y))); [lia| |tauto|tauto].
      apply Hy. auto. }
    assert (forall l, ~ In l cb -> ~ In l cc -> zcount (flat_of (rest ++ [y])) l = zcount (flat_of net) l) as Dother.
    { intros l Hl Hc. rewrite Cn, Cn'. rewrite (zcount_nodup l N1), (zcount_nodup l N2), (zcount_nodup l Ny).
      rewrite Hcc in Hc.
      destruct (zmem l (snd x1)) eqn:E1, (zmem l (snd x2)) eqn:E2; rewrite ?zmem_In, ?zmem_nIn in *.
      - tauto.
      - rewrite (proj2 (zmem_In l (snd y))); [lia|]. apply Hy. tauto.
      - rewrite (proj2 (zmem_In l (snd y))); [lia|]. apply Hy. tauto.
      - rewrite (proj2 (zmem_nIn l (snd y))); [lia|]. rewrite Hy, Hcb. tauto. }
    assert (forall l, In l cc -> (0 < l)%Z /\ zcount (flat_of net) l = 2 /\ zcount (flat_of rest) l = 0) as Pcc.
    { intros l Hl. apply Hcc in Hl as (H1 & H2 & Hn).
      assert (In l (flat_of net)) as Hin.
      { eapply Permutation_in; [apply Permutation_sym, flat_perm, P|]. rewrite flat_cons. apply in_or_app; auto. }
      assert (~ In l (map fst batch)) as Hb by (intros Hb; apply Hn, Hcb; auto).
      rewrite (inv_batch l I) in Hb.
      pose proof (Cn l) as C. rewrite (zcount_nodup l N1), (zcount_nodup l N2) in C.
      rewrite (proj2 (zmem_In l (snd x1)) H1), (proj2 (zmem_In l (snd x2)) H2) in C.
      pose proof (i_nz I Hin). assert ((0 < l)%Z) by lia. split; [assumption|]. lia. }
    assert (forall l, In l cc -> zcount (flat_of (rest ++ [y])) l = 0) as Dcc.
    { intros l Hl. rewrite Cn'. destruct (Pcc l Hl) as (_ & _ & ->).
      rewrite (zcount_nodup l Ny). rewrite (proj2 (zmem_nIn l (snd y))); [reflexivity|].
      rewrite Hy. apply Hcc in Hl. tauto. }
    assert (forall l, In l cb -> 2 <= zcount (flat_of net) l) as Bcb.
    { intros l Hl. apply Hcb in Hl as (Hl & _). apply (inv_batch l I) in Hl. lia. }
    assert (forall l, In l cb -> ~ In l cc) as Dis by (intros l Hl Hc; apply Hcc in Hc; tauto).
    assert (forall l, In l (flat_of (rest ++ [y])) <-> In l (flat_of net) /\ ~ In l cc) as Hflat.
    { intros l. rewrite (zcount_in (flat_of (rest ++ [y]))), (zcount_in (flat_of net)).
      destruct (in_dec Z.eq_dec l cc) as [Hc|Hc]; [rewrite (Dcc l Hc); split; [lia | tauto]|].
      destruct (in_dec Z.eq_dec l cb) as [Hb|Hb].
      - pose proof (Dcb l Hb). pose proof (Bcb l Hb). split; [intros _; split; [lia | exact Hc] | lia].
      - rewrite (Dother l Hb Hc). tauto. }
    split; [|split].
    - constructor.
      + intros x Hx. apply in_app_or in Hx. destruct Hx as [Hx|[<-|[]]]; [auto | split; assumption].
      + intros l Hl. apply Hflat in Hl. apply (i_nz I). tauto.
      + apply NoDup_filter, (i_cnd I).
      + intros l. rewrite filter_In, negb_true_iff, zmem_nIn, (i_con I), Hflat. tauto.
      + (* NoDup of the remaining batch labels *)
        pose proof (i_bnd I) as Nb. revert Nb. clear. unfold batch_dec.
        induction batch as [|[l c] r IH]; simpl; intros N; [constructor|].
        inversion N as [|? ? Hn N']; subst. rewrite map_app. apply NoDup_app_iff.
        assert (forall (f : Z * nat -> list (Z * nat)), (forall x, In x r -> incl (map fst (f x)) [fst x]) ->
                 forall z, In z (map fst (flat_map f r)) -> In z (map fst r)) as Sub.
        { intros f Hf z Hz. apply in_map_iff in Hz. destruct Hz as (w & <- & Hw).
          apply in_flat_map in Hw. destruct Hw as (v & Hv & Hw).
          assert (In (fst w) (map fst (f v))) as Q by (apply in_map; exact Hw).
          apply (Hf v Hv) in Q. destruct Q as [Q|[]]. rewrite <- Q. apply in_map, Hv. }
        split; [|split].
        * destruct (zmem l cb); [|simpl; constructor; [intros [] | constructor]].
          destruct (((0 <? l)%Z && (c - 1 <=? 2)) || ((l <? 0)%Z && (c - 1 <? 2))); simpl; [constructor|].
          constructor; [intros [] | constructor].
        * apply IH, N'.
        * intros z Hz Hz'.
          assert (z = l) as ->.
          { destruct (zmem l cb); [|simpl in Hz; tauto || (destruct Hz as [Hz|[]]; auto)].
            destruct (((0 <? l)%Z && (c - 1 <=? 2)) || ((l <? 0)%Z && (c - 1 <? 2))); simpl in Hz; [destruct Hz|].
            destruct Hz as [Hz|[]]; auto. }
          apply Hn. eapply Sub; [|exact Hz'].
          intros x _ z Hz1. cbn [fst snd] in Hz1.
          destruct (zmem (fst x) cb); [|exact Hz1].
          destruct (((0 <? fst x)%Z && (snd x - 1 <=? 2)) || ((fst x <? 0)%Z && (snd x - 1 <? 2))); [destruct Hz1 | exact Hz1].
      + intros l c. unfold batch_dec. rewrite in_flat_map. split.
        * intros ([l' c'] & Hin & H). cbn [fst snd] in H. apply (i_b I) in Hin as Hb.
          destruct Hb as [-> Hb].
          destruct (zmem l' cb) eqn:Ez.
          -- apply zmem_In in Ez. pose proof (Dcb l' Ez) as D.
             destruct ((0 <? l')%Z && (zcount (flat_of net) l' - 1 <=? 2) || (l' <? 0)%Z && (zcount (flat_of net) l' - 1 <? 2)) eqn:Eb;
               [destruct H|]. destruct H as [H|[]]. inversion H; subst l c.
             apply orb_false_iff in Eb. rewrite !andb_false_iff, !Z.ltb_ge, !Nat.leb_gt, !Nat.ltb_ge in Eb.
             split; [lia|]. lia.
          -- apply zmem_nIn in Ez. destruct H as [H|[]]. inversion H; subst l c.
             assert (~ In l' cc) as Hc.
             { intros Hc. pose proof (Pcc _ Hc) as (? & ? & _). lia. }
             rewrite (Dother l' Ez Hc). auto.
        * intros [-> H].
          assert (~ In l cc) as Hc by (intros Hc; rewrite (Dcc l Hc) in H; lia).
          exists (l, zcount (flat_of net) l).
          destruct (in_dec Z.eq_dec l cb) as [Hb|Hb].
          -- pose proof (Dcb l Hb) as D. split; [apply (i_b I); split; [reflexivity | lia]|].
             cbn [fst snd]. rewrite (proj2 (zmem_In l cb) Hb).
             destruct ((0 <? l)%Z && (zcount (flat_of net) l - 1 <=? 2) || (l <? 0)%Z && (zcount (flat_of net) l - 1 <? 2)) eqn:Eb.
             ++ exfalso. apply orb_true_iff in Eb. rewrite !andb_true_iff, !Z.ltb_lt, Nat.leb_le, Nat.ltb_lt in Eb. lia.
             ++ left. f_equal. lia.
          -- rewrite (Dother l Hb Hc) in *. split; [apply (i_b I); auto|].
             cbn [fst snd]. rewrite (proj2 (zmem_nIn l cb) Hb). left. reflexivity.
      + intros l Hl Hp. apply Hflat in Hl as [Hl Hc].
        destruct (in_dec Z.eq_dec l cb) as [Hb|Hb].
        * pose proof (Dcb l Hb). apply Hcb in Hb as (Hb & _). apply (inv_batch l I) in Hb. lia.
        * rewrite (Dother l Hb Hc). apply (i_pos I); assumption.
    - intros l Hl. rewrite Hflat. split; [|tauto]. intros H. split; [exact H|].
      intros Hc. destruct (Pcc l Hc) as (? & _). lia.
    - intros a Ra. apply contract_value with (part := [x1; x2]).
      + exact P.
      + apply (i_cnd I).
      + exact Ncc.
      + intros l Hl. apply (i_con I). destruct (Pcc l Hl) as (? & ? & _). split; [assumption|].
        apply zcount_in. lia.
      + intros l Hl. apply zcount_notin. apply (Pcc l Hl).
      + intros l Hl. rewrite !flat_cons, !in_app_iff. apply Hy in Hl. rewrite Hcc. rewrite Hcb in *. tauto.
      + exact Fy.
      + exact Ra.
  Qed.

  Lemma batch_dec_incl cb batch l : In l (map fst (batch_dec cb batch)) -> In l (map fst batch).
  Proof.
    unfold batch_dec. rewrite !in_map_iff. intros ([l' c] & E & H). cbn [fst] in E. subst l'. apply in_flat_map in H.
    destruct H as (x & Hx & H). exists x. split; [|exact Hx].
    destruct (zmem (fst x) cb).
    - destruct (_ || _); [destruct H|]. destruct H as [H|[]]. inversion H. congruence.
    - destruct H as [H|[]]. rewrite H. reflexivity.
  Qed.

  Lemma flat_map_single A (l : list A) : flat_map (fun x => [x]) l = l.
  Proof. induction l; simpl; congruence. Qed.
  Lemma batch_dec_nil batch : batch_dec [] batch = batch.
  Proof. apply flat_map_single. Qed.

  (** ** The main loop *)
  Theorem loop_ok fuel : forall skips net con batch,
    inv net con batch -> length net + (length con + 1 - skips) <= fuel ->
    match loop iter fuel skips net con batch with
    | Ok (net', batch') =>
        inv net' [] batch' /\
        (forall l, (l < 0)%Z -> (In l (flat_of net) <-> In l (flat_of net'))) /\
        (net <> [] -> net' <> []) /\
        (forall a, in_range con net a -> einsum dim con net a = netprod net' a)
    | Raise => exists l, (0 < l)%Z /\ In l (map fst batch)
    | Fuel => False
    end.
  Proof.
    induction fuel as [|fuel IH]; intros skips net con batch I Hf.
    - destruct con as [|c rest]; cbn [loop].
      + split; [exact I|]. split; [tauto|]. split; [auto|]. reflexivity.
      + assert (In c (c :: rest)) as Hc by (left; reflexivity).
        apply (i_con I) in Hc. destruct net; [destruct (proj2 Hc)|]. simpl in Hf. lia.
    - destruct con as [|c rest]; cbn [loop].
      { split; [exact I|]. split; [tauto|]. split; [auto|]. reflexivity. }
      destruct (zmem c (map fst batch)) eqn:Eb.
      + (* skip a batch label *)
        assert (Permutation (c :: rest) (rest ++ [c])) as Pc by apply Permutation_cons_append.
        destruct (Nat.ltb_spec (length (rest ++ [c])) (S skips)) as [Hs|Hs]; cbn [negb guard].
        * exists c. split; [|apply zmem_In, Eb].
          assert (In c (c :: rest)) as Hc by (left; reflexivity). apply (i_con I) in Hc. tauto.
        * assert (inv net (rest ++ [c]) batch) as I'.
          { destruct I. constructor; auto.
            - eapply Permutation_NoDup; [exact Pc | assumption].
            - intros l. rewrite <- i_con0. split; apply Permutation_in; [apply Permutation_sym|]; exact Pc. }
          assert (length (rest ++ [c]) = length (c :: rest)) as Lc by (symmetry; apply Permutation_length, Pc).
          assert (length net + (length (rest ++ [c]) + 1 - S skips) <= fuel) as Hf' by lia.
          specialize (IH (S skips) net (rest ++ [c]) batch I' Hf').
          destruct (loop iter fuel (S skips) net (rest ++ [c]) batch) as [[net' batch']| |]; auto.
          destruct IH as (J1 & J2 & J3 & J4). split; [exact J1|]. split; [exact J2|]. split; [exact J3|].
          intros a Ra. rewrite (einsum_perm_labels Z.eq_dec dim net a (i_cnd I) Pc). apply J4.
          intros l Hl Hn. apply Ra; [exact Hl|]. intros Hc. apply Hn.
          eapply Permutation_in; [exact Pc | exact Hc].
      + (* contract two tensors *)
        destruct (locs_two I (or_introl eq_refl)) as (p0 & p1 & r & x1 & x2 & El & Hlt & E1 & E2 & Hc1 & Hc2).
        rewrite El, E1, E2.
        pose proof (remove2 Hlt E1 E2) as P.
        set (net1 := remove_at p0 (remove_at p1 net)) in *.
        assert (length net = S (S (length net1))) as Ln by (apply Permutation_length in P; exact P).
        assert (good x1 /\ good x2) as [G1 G2].
        { split; apply (i_good I); (eapply Permutation_in; [apply Permutation_sym; exact P|]); simpl; auto. }
        set (common := label_intersection iter (snd x1) (snd x2)).
        set (cb := iter (filter (fun l => zmem l common) (map fst batch))).
        assert (forall l, In l cb <-> In l (map fst batch) /\ In l (snd x1) /\ In l (snd x2)) as Hcb.
        { intros l. unfold cb. rewrite (In_iter iter_perm), filter_In, zmem_In. unfold common. rewrite In_inter. tauto. }
        assert (NoDup cb) as Ncb by (apply (NoDup_iter iter_perm), NoDup_filter, (i_bnd I)).
        assert (forall net2 con2 batch2,
          (inv net2 con2 batch2 /\
           (forall l, (l < 0)%Z -> (In l (flat_of net) <-> In l (flat_of net2))) /\
           (forall a, in_range (c :: rest) net a -> einsum dim (c :: rest) net a = einsum dim con2 net2 a)) ->
          length net2 = S (length net1) -> length con2 <= length (c :: rest) -> 
          (forall l, In l (map fst batch2) -> In l (map fst batch)) ->
          (forall a, in_range (c :: rest) net a -> in_range con2 net2 a) ->
          match loop iter fuel skips net2 con2 batch2 with
          | Ok (net', batch') =>
              inv net' [] batch' /\
              (forall l, (l < 0)%Z -> (In l (flat_of net) <-> In l (flat_of net'))) /\
              (net <> [] -> net' <> []) /\
              (forall a, in_range (c :: rest) net a -> einsum dim (c :: rest) net a = netprod net' a)
          | Raise => exists l, (0 < l)%Z /\ In l (map fst batch)
          | Fuel => False
          end) as Finish.
        { intros net2 con2 batch2 (I2 & S2 & V2) L2 Lc2 B2 R2.
          assert (length net2 + (length con2 + 1 - skips) <= fuel) as Hf' by lia.
          specialize (IH skips net2 con2 batch2 I2 Hf').
          destruct (loop iter fuel skips net2 con2 batch2) as [[net' batch']| |].
          - destruct IH as (J1 & J2 & J3 & J4).
            split; [exact J1|]. split; [intros l Hl; rewrite S2, J2; tauto|].
            split; [intros _; apply J3; destruct net2; [discriminate | congruence]|].
            intros a Ra. rewrite V2 by exact Ra. apply J4, R2, Ra.
          - destruct IH as (l & Hl & Hb). eauto.
          - exact IH. }
        assert (forall C net2 batch2, inv net2 (filter (fun o => negb (zmem o C)) (c :: rest)) batch2 ->
          (forall l, (l < 0)%Z -> (In l (flat_of net) <-> In l (flat_of net2))) ->
          forall a, in_range (c :: rest) net a -> in_range (filter (fun o => negb (zmem o C)) (c :: rest)) net2 a) as Rng.
        { intros C net2 batch2 I2 S2 a Ra l Hl Hn.
          pose proof (i_nz I2 Hl) as Hz.
          assert (~ (0 < l)%Z) as Hneg by (intros Hp; apply Hn, (i_con I2); auto).
          apply Ra; [apply S2; [lia | exact Hl]|]. rewrite (i_con I). lia. }
        destruct cb as [|cb0 cbr] eqn:Ecb.
        * (* tensordot *)
          destruct x1 as [t1 l1], x2 as [t2 l2]. cbn [snd] in *.
          destruct G1 as [F1 N1], G2 as [F2 N2]. cbn [snd] in *.
          destruct (@dot_ok R dim t1 l1 t2 l2 common F1 F2 N1 N2 (NoDup_inter _ _) (fun l => In_inter l1 l2 l))
            as (y & Ey & Ly & Fy & Ny & Vy).
          rewrite Ey. cbn [rbind].
          assert (inv (net1 ++ [y]) (filter (fun o => negb (zmem o common)) (c :: rest)) batch /\
            (forall l, (l < 0)%Z -> (In l (flat_of net) <-> In l (flat_of (net1 ++ [y])))) /\
            (forall a, in_range (c :: rest) net a ->
               einsum dim (c :: rest) net a = einsum dim (filter (fun o => negb (zmem o common)) (c :: rest)) (net1 ++ [y]) a)) as St.
          { apply (@inv_step net (c :: rest) batch (t1, l1) (t2, l2) net1 y [] common batch).
            - exact I.
            - exact P.
            - exact Hcb.
            - intros l. cbn [snd]. unfold common. rewrite In_inter. cbn. tauto.
            - apply NoDup_inter.
            - split; assumption.
            - intros l. rewrite Ly, in_app_iff, !filter_In, !negb_true_iff, !zmem_nIn. unfold common. rewrite In_inter.
              cbn [snd In]. tauto.
            - symmetry. apply batch_dec_nil.
            - intros b _. apply Vy. }
          apply (Finish _ _ _ St).
          -- rewrite app_length. cbn. lia.
          -- apply filter_length_le.
          -- auto.
          -- apply (Rng _ _ _ (proj1 St) (proj1 (proj2 St))).
        * (* batched product *)
          rewrite <- Ecb in *. clear Ecb cb0 cbr.
          destruct x1 as [t1 l1], x2 as [t2 l2]. cbn [snd] in *.
          destruct G1 as [F1 N1], G2 as [F2 N2]. cbn [snd] in *.
          destruct (@batch_cont_ok R iter iter_perm dim t1 l1 t2 l2 cb F1 F2 N1 N2 Ncb)
            as (y & cc & Ey & Ncc & Hcc & Ly & Fy & Ny & Vy).
          { intros l Hl. apply Hcb in Hl. tauto. }
          rewrite Ey. cbn [rbind fst snd].
          assert (inv (net1 ++ [y]) (filter (fun o => negb (zmem o cc)) (c :: rest)) (batch_dec cb batch) /\
            (forall l, (l < 0)%Z -> (In l (flat_of net) <-> In l (flat_of (net1 ++ [y])))) /\
            (forall a, in_range (c :: rest) net a ->
               einsum dim (c :: rest) net a = einsum dim (filter (fun o => negb (zmem o cc)) (c :: rest)) (net1 ++ [y]) a)) as St.
          { apply (@inv_step net (c :: rest) batch (t1, l1) (t2, l2) net1 y cb cc (batch_dec cb batch)).
            - exact I.
            - exact P.
            - exact Hcb.
            - exact Hcc.
            - exact Ncc.
            - split; assumption.
            - intros l. rewrite Ly, !in_app_iff, !filter_In. unfold bfree.
              rewrite !andb_true_iff, !negb_true_iff, !zmem_nIn, Hcc. cbn [snd]. rewrite Hcb.
              destruct (in_dec Z.eq_dec l l1), (in_dec Z.eq_dec l l2), (in_dec Z.eq_dec l (map fst batch)); tauto.
            - reflexivity.
            - exact Vy. }
          apply (Finish _ _ _ St).
          -- rewrite app_length. cbn. lia.
          -- apply filter_length_le.
          -- apply batch_dec_incl.
          -- apply (Rng _ _ _ (proj1 St) (proj1 (proj2 St))).
  Qed.

  (** ** Outer products and remaining batch contractions *)
  Lemma finish_ok bl : NoDup bl -> forall rest x2,
    (forall x, In x (x2 :: rest) -> good x) ->
    (forall l, 2 <= zcount (flat_of (x2 :: rest)) l -> In l bl) ->
    exists y, finish iter x2 rest bl = Ok y /\ good y /\
      (forall l, In l (snd y) <-> In l (flat_of (x2 :: rest))) /\
      forall a, (forall l, In l (snd y) -> a l < dim l) -> fval y a = netprod (x2 :: rest) a.
  Proof.
    intros Nbl rest. induction rest as [|x1 r IH]; intros x2 G B; cbn [finish].
    - exists x2. split; [reflexivity|]. split; [apply G; left; reflexivity|]. split.
      + intros l. rewrite flat_cons. cbn. rewrite app_nil_r. tauto.
      + intros a _. unfold netprod, lprod. cbn. ring.
    - set (common := label_intersection iter (snd x1) (snd x2)).
      set (cb := iter (filter (fun l => zmem l common) bl)).
      assert (good x1) as [F1 N1] by (apply G; right; left; reflexivity).
      assert (good x2) as [F2 N2] by (apply G; left; reflexivity).
      assert (forall l, In l cb <-> In l (snd x1) /\ In l (snd x2)) as Hcb.
      { intros l. unfold cb. rewrite (In_iter iter_perm), filter_In, zmem_In. unfold common. rewrite In_inter.
        split; [tauto|]. intros [H1 H2]. split; [|auto]. apply B. rewrite !flat_cons, !zcount_app.
        rewrite (zcount_nodup l N1), (zcount_nodup l N2), (proj2 (zmem_In l _) H1), (proj2 (zmem_In l _) H2). lia. }
      assert (NoDup cb) as Ncb by (apply (NoDup_iter iter_perm), NoDup_filter, Nbl).
      assert (forall y, good y -> (forall l, In l (snd y) <-> In l (snd x1) \/ In l (snd x2)) ->
        (forall a, (forall l, In l (snd y) -> a l < dim l) -> fval y a = fval x1 a *! fval x2 a) ->
        exists z, finish iter y r bl = Ok z /\ good z /\
          (forall l, In l (snd z) <-> In l (flat_of (x2 :: x1 :: r))) /\
          forall a, (forall l, In l (snd z) -> a l < dim l) -> fval z a = netprod (x2 :: x1 :: r) a) as Step.
      { intros y Gy Hy Vy. destruct (IH y) as (z & Ez & Gz & Hz & Vz).
        - intros x [<-|Hx]; [exact Gy|]. apply G. right; right; exact Hx.
        - intros l Hl. apply B. rewrite !flat_cons, !zcount_app in *.
          destruct Gy as [_ Ny]. rewrite (zcount_nodup l Ny) in Hl. rewrite (zcount_nodup l N1), (zcount_nodup l N2).
          assert ((if zmem l (snd y) then 1 else 0) <= (if zmem l (snd x2) then 1 else 0) + (if zmem l (snd x1) then 1 else 0)); [|lia].
          destruct (zmem l (snd y)) eqn:E; [|lia]. apply zmem_In, Hy in E.
          destruct E as [E|E]; apply zmem_In in E; rewrite E; destruct (zmem l _); lia.
        - exists z. split; [exact Ez|]. split; [exact Gz|]. split.
          + intros l. rewrite Hz, !flat_cons, !in_app_iff, Hy. tauto.
          + intros a Ra. rewrite Vz by exact Ra. unfold netprod, lprod. cbn [fold_right].
            rewrite Vy; [ring|]. intros l Hl. apply Ra, Hz. rewrite flat_cons. apply in_or_app. auto. }
      destruct cb as [|cb0 cbr] eqn:Ecb.
      + apply Step; cbn [snd fst].
        * split; [|cbn [snd]].
          -- destruct x1, x2. apply fits_outer; assumption.
          -- apply NoDup_app_iff. repeat split; auto. intros l H1 H2. apply (proj2 (Hcb l)). auto.
        * intros l. apply in_app_iff.
        * intros a _. destruct x1 as [t1 l1], x2 as [t2 l2]. apply fval_outer. apply (fits_rank F1).
      + rewrite <- Ecb in *. clear Ecb cb0 cbr.
        destruct x1 as [t1 l1], x2 as [t2 l2].
        destruct (@batch_cont_ok R iter iter_perm dim t1 l1 t2 l2 cb F1 F2 N1 N2 Ncb)
            as (y & cc & Ey & Ncc & Hcc & Ly & Fy & Ny & Vy).
        { intros l. apply Hcb. }
        assert (cc = []) as ->.
        { destruct cc as [|l cc']; [reflexivity|]. exfalso.
          destruct (proj1 (Hcc l) (or_introl eq_refl)) as (H1 & H2 & Hn). apply Hn, Hcb. auto. }
        rewrite Ey. cbn [rbind fst]. apply Step.
        * split; assumption.
        * intros l. rewrite Ly, !in_app_iff, !filter_In. unfold bfree. cbn [zmem existsb negb andb snd].
          rewrite !negb_true_iff, !zmem_nIn. cbn [snd] in Hcb. rewrite Hcb.
          destruct (in_dec Z.eq_dec l l1), (in_dec Z.eq_dec l l2); tauto.
        * intros a Ra. rewrite Vy by exact Ra. unfold netprod, lprod. cbn. ring.
  Qed.

  Lemma zcount_flat_ge net x l : In x net -> zcount (snd x) l <= zcount (flat_of net) l.
  Proof.
    induction net as [|y r IH]; [intros []|]. rewrite flat_cons, zcount_app.
    intros [-> | H]; [lia|]. apply IH in H. lia.
  Qed.

  (** ** Replacing every tensor by a partial sum of its own *)
  Definition part_rel (x : factor) (p : factor * list Z) : Prop :=
    good (fst p) /\ NoDup (snd p) /\ (forall l, In l (snd p) -> In l (snd x)) /\
    snd (fst p) = filter (fun l => negb (zmem l (snd p))) (snd x) /\
    forall b, (forall l, In l (snd (fst p)) -> b l < dim l) -> fval (fst p) b = esum dim (snd p) (fval x) b.

  Lemma parts_value net xs : Forall2 part_rel net xs -> forall pre con a,
    NoDup con -> (forall p l, In p xs -> In l (snd p) -> In l con) ->
    (forall x p l, In (x, p) (combine net xs) -> In l (snd p) -> zcount (flat_of (pre ++ net)) l = zcount (snd x) l) ->
    in_range con (pre ++ net) a ->
    einsum dim con (pre ++ net) a =
    einsum dim (filter (fun c => negb (zmem c (flat_map (fun p => snd p) xs))) con) (pre ++ map fst xs) a.
  Proof.
    induction 1 as [|x p net xs Rx RF IH]; intros pre con a Nc Ic Hc Ra.
    - cbn. rewrite filter_all by reflexivity. reflexivity.
    - destruct p as [y u]. destruct Rx as (Gy & Nu & Iu & Ly & Vy). cbn [fst snd] in *.
      assert (forall l, In l u -> zcount (flat_of (pre ++ x :: net)) l = zcount (snd x) l) as Hu.
      { intros l Hl. apply (Hc x (y, u)); [left; reflexivity | exact Hl]. }
      rewrite (@contract_value (pre ++ x :: net) con [x] (pre ++ net) y u a).
      + set (con' := filter (fun l => negb (zmem l u)) con).
        assert (Permutation ((pre ++ net) ++ [y]) ((pre ++ [y]) ++ net)) as P.
        { rewrite <- !app_assoc. apply Permutation_app_head, Permutation_app_comm. }
        rewrite (einsum_perm_net Z.eq_dec dim _ a P).
        rewrite IH.
        * rewrite <- app_assoc. cbn [app]. f_equal. unfold con'. rewrite filter_filter.
          apply filter_In_ext. intros c Hcc. cbn [flat_map snd].
          unfold zmem. rewrite existsb_app. rewrite negb_orb. reflexivity.
        * apply NoDup_filter, Nc.
        * intros [y' u'] l Hin Hl. unfold con'. apply filter_In. split; [apply (Ic (y', u')); [right; exact Hin | exact Hl]|].
          apply negb_true_iff, zmem_nIn. intros Hlu. cbn [snd] in Hl.
          (* l summed in two tensors *)
          destruct (Forall2_in_r RF Hin) as (x' & Hcomb & Rx').
          pose proof (Hu l Hlu) as C2.
          assert (In l (snd x')) as Hx' by (apply Rx'; exact Hl).
          rewrite flat_app, flat_cons, !zcount_app in C2.
          assert (0 < zcount (flat_of net) l); [|lia].
          apply zcount_in, In_flat. exists x'. split; [|exact Hx']. eapply in_combine_l; exact Hcomb.
        * intros x' p l Hin Hl. specialize (Hc x' p l (or_intror Hin) Hl).
          rewrite !flat_app, !flat_cons, !zcount_app in *. cbn [flat_of flat_map app] in *.
          assert (zcount (snd y) l <= zcount (snd x) l).
          { rewrite Ly, count_filter. destruct (negb (zmem l u)); lia. }
          assert (zcount (snd x') l <= zcount (flat_of net) l).
          { apply zcount_flat_ge. eapply in_combine_l; exact Hin. }
          change (zcount [] l) with 0. lia.
        * intros l Hl Hn.
          assert (In l (flat_of (pre ++ x :: net)) /\ ~ In l u) as [Hl1 Hl2].
          { rewrite !flat_app, !flat_cons, !in_app_iff in *. change (In l (flat_of [])) with False in Hl.
            rewrite Ly, filter_In, negb_true_iff, zmem_nIn in Hl. split; [tauto|].
            destruct Hl as [[Hl|[Hl|[]]]|Hl]; [|tauto|]; intros Hlu; specialize (Hu l Hlu);
              rewrite ?flat_app, ?flat_cons, !zcount_app in Hu; apply zcount_in in Hl; lia. }
          apply Ra; [exact Hl1|]. intros Hcon. apply Hn. apply filter_In. split; [exact Hcon|].
          apply negb_true_iff, zmem_nIn, Hl2.
      + cbn [app]. rewrite Permutation_app_comm. cbn [app]. apply perm_skip, Permutation_app_comm.
      + exact Nc.
      + exact Nu.
      + intros l Hl. apply (Ic (y, u)); [left; reflexivity | exact Hl].
      + intros l Hl. specialize (Hu l Hl). rewrite flat_app, flat_cons, !zcount_app in Hu.
        rewrite flat_app, in_app_iff, !zcount_in. lia.
      + intros l Hl. rewrite Ly, filter_In, negb_true_iff, zmem_nIn in Hl.
        rewrite flat_cons, in_app_iff. tauto.
      + intros b Hb. rewrite Vy by exact Hb. apply esum_ext. intros c. unfold netprod, lprod. cbn. ring.
      + exact Ra.
  Qed.

  Lemma parts_keep net xs l : Forall2 part_rel net xs -> ~ In l (flat_map (fun p => snd p) xs) ->
    zcount (flat_of (map fst xs)) l = zcount (flat_of net) l.
  Proof.
    induction 1 as [|x p net xs Rx RF IH]; intros H; [reflexivity|].
    cbn [map flat_map] in *. rewrite in_app_iff in H. rewrite !flat_cons, !zcount_app, IH by tauto.
    destruct Rx as (_ & _ & _ & -> & _). rewrite count_filter, (proj2 (zmem_nIn l (snd p))) by tauto. reflexivity.
  Qed.

  Lemma parts_sub net xs l : Forall2 part_rel net xs -> In l (flat_of (map fst xs)) -> In l (flat_of net).
  Proof.
    induction 1 as [|x p net xs Rx RF IH]; intros H; [destruct H|].
    cbn [map] in *. rewrite flat_cons, in_app_iff in *. destruct H as [H|H]; [|auto].
    destruct Rx as (_ & _ & _ & Ly & _). rewrite Ly, filter_In in H. tauto.
  Qed.

  Lemma parts_gone net xs l : Forall2 part_rel net xs ->
    (forall x p, In (x, p) (combine net xs) -> In l (snd p) -> zcount (flat_of net) l = zcount (snd x) l) ->
    In l (flat_map (fun p => snd p) xs) -> zcount (flat_of (map fst xs)) l = 0.
  Proof.
    induction 1 as [|x p net xs Rx RF IH]; intros Hc H; [reflexivity|].
    cbn [map flat_map combine] in *. rewrite flat_cons, zcount_app. apply in_app_or in H.
    destruct (in_dec Z.eq_dec l (snd p)) as [Hp|Hp].
    - assert (zcount (snd (fst p)) l = 0) as ->.
      { destruct Rx as (_ & _ & _ & -> & _). rewrite count_filter, (proj2 (zmem_In l (snd p)) Hp). reflexivity. }
      specialize (Hc x p (or_introl eq_refl) Hp). rewrite flat_cons, zcount_app in Hc.
      apply zcount_notin. intros Hl. apply (parts_sub RF) in Hl. apply zcount_in in Hl. lia.
    - destruct H as [H|H]; [contradiction|].
      apply in_flat_map in H as H'. destruct H' as (q & Hq & Hlq).
      destruct (Forall2_in_r RF Hq) as (xq & Hcomb & Rq).
      pose proof (Hc xq q (or_intror Hcomb) Hlq) as C. rewrite flat_cons, zcount_app in C.
      pose proof (zcount_flat_ge l (in_combine_l _ _ _ _ Hcomb)) as G.
      assert (zcount (snd x) l = 0) as Z0 by lia.
      assert (zcount (snd (fst p)) l = 0) as ->.
      { destruct Rx as (_ & _ & _ & -> & _). rewrite count_filter, Z0. destruct (negb _); reflexivity. }
      apply IH; [|exact H]. intros x' p' Hin Hl.
      specialize (Hc x' p' (or_intror Hin) Hl). rewrite flat_cons, zcount_app in Hc. lia.
  Qed.

  Lemma mapr_Forall2 A B (f : A -> res B) (P : A -> B -> Prop) l :
    (forall x, In x l -> exists y, f x = Ok y /\ P x y) -> exists ys, mapr f l = Ok ys /\ Forall2 P l ys.
  Proof.
    induction l as [|x r IH]; intros H; [exists []; split; [reflexivity | constructor]|].
    destruct (H x (or_introl eq_refl)) as (y & Ey & Py).
    destruct IH as (ys & Eys & Pys); [intros; apply H; right; assumption|].
    exists (y :: ys). cbn [mapr]. rewrite Ey. cbn [rbind]. rewrite Eys. split; [reflexivity | constructor; assumption].
  Qed.

  (** networks in which every label occurs once per tensor, except that a label may occur
      twice in one tensor (a trace) if it is positive and occurs nowhere else *)
  Record well net : Prop := {
    w_fits : forall x, In x net -> fits dim x;
    w_nz : forall l, In l (flat_of net) -> l <> 0%Z;
    w_cnt : forall x l, In x net -> In l (snd x) ->
      zcount (snd x) l = 1 \/ (zcount (snd x) l = 2 /\ (0 < l)%Z /\ zcount (flat_of net) l = 2) }.

  Lemma trace_all_ok net con :
    well net -> NoDup con -> (forall l, In l con <-> (0 < l)%Z /\ In l (flat_of net)) ->
    exists net1 con1, trace_all net con = Ok (net1, con1) /\
      (forall x, In x net1 -> good x) /\ length net1 = length net /\
      (forall l, zcount (flat_of net1) l = zcount (flat_of net) l \/
                 ((0 < l)%Z /\ zcount (flat_of net1) l = 0 /\ zcount (flat_of net) l = 2)) /\
      NoDup con1 /\ (forall l, In l con1 <-> (0 < l)%Z /\ In l (flat_of net1)) /\
      (forall y, In y net1 -> exists x, In x net /\ forall l, In l (snd y) <-> In l (snd x) /\ In l (flat_of net1)) /\
      (forall a, in_range con net a -> einsum dim con net a = einsum dim con1 net1 a).
  Proof.
    intros W Nc Ic.
    destruct (@mapr_Forall2 _ _ (@partial_trace R)
      (fun x p => part_rel x p /\ (forall l, In l (snd p) <-> zcount (snd x) l = 2)) net) as (xs & Exs & RF).
    { intros [t ls] Hx. destruct (@partial_trace_ok R dim t ls (w_fits W Hx)) as (y & u & E & Nu & Hu & Ly & Fy & Ny & Vy).
      { intros l Hl. destruct (w_cnt W Hx Hl) as [E|(E & _)]; cbn [snd] in E; lia. }
      exists (y, u). split; [exact E|]. cbn [fst snd]. split; [|exact Hu].
      repeat split; auto. cbn [snd]. intros l Hl. apply Hu in Hl. apply zcount_in. lia. }
    assert (Forall2 part_rel net xs) as RF1.
    { clear -RF. induction RF as [|? ? ? ? [? ?]]; constructor; auto. }
    assert (forall x p l, In (x, p) (combine net xs) -> In l (snd p) ->
              zcount (snd x) l = 2 /\ (0 < l)%Z /\ zcount (flat_of net) l = 2) as Hc.
    { intros x p l Hin Hl.
      assert (forall l1 l2, Forall2 (fun (x : factor) (p : factor * list Z) => part_rel x p /\ (forall l, In l (snd p) <-> zcount (snd x) l = 2)) l1 l2 ->
               In (x, p) (combine l1 l2) -> (forall l, In l (snd p) <-> zcount (snd x) l = 2)) as Aux.
      { clear. induction 1 as [|? ? ? ? [? ?]]; cbn; intros Hin; [destruct Hin|].
        destruct Hin as [E|Hin]; [inversion E; subst; assumption | auto]. }
      pose proof (proj1 (Aux _ _ RF Hin l) Hl) as E.
      assert (In x net) as Hx by (eapply in_combine_l; exact Hin).
      assert (In l (snd x)) as Hlx by (apply zcount_in; lia).
      destruct (w_cnt W Hx Hlx) as [E'|E']; [lia | exact E']. }
    set (U := flat_map (fun p => snd p) xs).
    assert (forall l, In l U -> (0 < l)%Z /\ zcount (flat_of net) l = 2 /\ zcount (flat_of (map fst xs)) l = 0) as HU.
    { intros l Hl. unfold U in Hl. apply in_flat_map in Hl as Hl'. destruct Hl' as (p & Hp & Hlp).
      destruct (Forall2_in_r RF1 Hp) as (x & Hcomb & _).
      destruct (Hc x p l Hcomb Hlp) as (C1 & C2 & C3). repeat split; auto.
      apply (parts_gone RF1); [|exact Hl]. intros x' p' Hin Hl'. destruct (Hc _ _ _ Hin Hl') as (? & ? & ?). lia. }
    exists (map fst xs), (filter (fun c => negb (zmem c U)) con).
    split; [unfold trace_all; rewrite Exs; reflexivity|].
    split.
    { intros y Hy. apply in_map_iff in Hy. destruct Hy as (p & <- & Hp).
      destruct (Forall2_in_r RF1 Hp) as (x & _ & Rx). apply Rx. }
    split.
    { rewrite map_length. symmetry. clear -RF. induction RF; cbn; congruence. }
    split.
    { intros l. destruct (in_dec Z.eq_dec l U) as [i|i].
      - right. destruct (HU l i) as (? & ? & ?). auto.
      - left. apply (parts_keep RF1 i). }
    split; [apply NoDup_filter, Nc|].
    split.
    { intros l. rewrite filter_In, negb_true_iff, zmem_nIn, Ic.
      destruct (in_dec Z.eq_dec l U) as [i|i].
      - destruct (HU l i) as (? & ? & Z0). apply zcount_notin in Z0. tauto.
      - pose proof (parts_keep RF1 i) as K. rewrite (zcount_in (flat_of (map fst xs))), K, <- zcount_in. tauto. }
    split.
    { intros y Hy. apply in_map_iff in Hy. destruct Hy as (p & <- & Hp).
      destruct (Forall2_in_r RF1 Hp) as (x & Hcomb & Rx). exists x. split; [eapply in_combine_l; exact Hcomb|].
      intros l. split.
      - intros Hl. split.
        + destruct Rx as (_ & _ & _ & Ly & _). rewrite Ly, filter_In in Hl. tauto.
        + apply In_flat. exists (fst p). split; [apply in_map, Hp | exact Hl].
      - intros [Hl Hf]. destruct Rx as (_ & _ & _ & -> & _). apply filter_In. split; [exact Hl|].
        apply negb_true_iff, zmem_nIn. intros Hlp.
        assert (In l U) as HlU by (apply in_flat_map; eauto). destruct (HU l HlU) as (_ & _ & Z0).
        apply zcount_in in Hf. lia. }
    intros a Ra. apply (parts_value RF1 (pre := [])); cbn [app].
    - exact Nc.
    - intros p l Hp Hl. apply Ic. assert (In l U) as HlU by (apply in_flat_map; eauto).
      destruct (HU l HlU) as (? & ? & _). split; [assumption|]. apply zcount_in. lia.
    - intros x p l Hin Hl. destruct (Hc _ _ _ Hin Hl) as (? & ? & ?). lia.
    - exact Ra.
  Qed.

  Lemma In_contractable flat l : In l (contractable flat) <-> zcount flat l = 1 /\ (0 < l)%Z.
  Proof.
    unfold contractable. rewrite filter_In, andb_true_iff, Nat.eqb_eq, Z.ltb_lt.
    split; [tauto|]. intros [H1 H2]. split; [apply zcount_in; lia | auto].
  Qed.
  Lemma NoDup_contractable flat : NoDup (contractable flat).
  Proof.
    apply nodup_zcount. intros l Hl. unfold contractable. rewrite count_filter.
    apply In_contractable in Hl. destruct Hl as [E P]. rewrite E.
    rewrite (proj2 (Z.ltb_lt 0 l) P). reflexivity.
  Qed.

  Lemma sum_one_spec cl x : good x -> NoDup cl ->
    match sum_one cl x with
    | Ok y => exists u, part_rel x (y, u) /\ (forall l, In l u <-> In l cl /\ In l (snd x))
    | Raise => exists l l', In l (snd x) /\ In l cl /\ In l' cl /\ ~ In l' (snd x)
    | Fuel => False
    end.
  Proof.
    intros [F N] Nc. destruct x as [t ls]. unfold sum_one. cbn [snd] in *.
    destruct (existsb (fun l => zmem l cl) ls) eqn:E.
    - apply existsb_exists in E. destruct E as (l & Hl & Hlc). apply zmem_In in Hlc.
      destruct (forallb (fun l => zmem l ls) cl) eqn:E2; cbn [guard].
      + rewrite forallb_forall in E2.
        assert (forall l, In l cl -> In l ls) as I by (intros l' Hl'; apply zmem_In, E2, Hl').
        destruct (@sum_axes_ok R dim t ls cl F N Nc I) as (Fy & Ny & Vy).
        exists cl. split; [|intros l'; split; [auto | tauto]].
        split; [split; [exact Fy | exact Ny]|]. cbn [fst snd]. repeat split; auto.
      + assert (exists l', In l' cl /\ ~ In l' ls) as (l' & H1 & H2).
        { clear -E2. induction cl as [|c r IH]; cbn in E2; [discriminate|].
          apply andb_false_iff in E2. destruct E2 as [E2|E2].
          - exists c. split; [left; reflexivity | apply zmem_nIn, E2].
          - destruct (IH E2) as (l' & ? & ?). exists l'. split; [right|]; assumption. }
        exists l, l'. auto.
    - exists []. split.
      + split; [split; assumption|]. cbn [fst snd]. split; [constructor|]. split; [intros l []|]. split.
        * symmetry. apply filter_all. reflexivity.
        * intros b _. reflexivity.
      + intros l. split; [intros []|]. intros [H1 H2].
        assert (existsb (fun l => zmem l cl) ls = true) as E'; [|congruence].
        apply existsb_exists. exists l. split; [exact H2 | apply zmem_In, H1].
  Qed.

  Lemma sum_mapr cl net : (forall x, In x net -> good x) -> NoDup cl ->
    match mapr (sum_one cl) net with
    | Ok ys => exists xs, ys = map fst xs /\ Forall2 part_rel net xs /\
        (forall x p l, In (x, p) (combine net xs) -> (In l (snd p) <-> In l cl /\ In l (snd x)))
    | Raise => exists x l l', In x net /\ In l (snd x) /\ In l cl /\ In l' cl /\ ~ In l' (snd x)
    | Fuel => False
    end.
  Proof.
    intros G Nc. induction net as [|x r IH]; cbn [mapr].
    - exists []. split; [reflexivity|]. split; [constructor|]. intros x p l [].
    - pose proof (sum_one_spec (G x (or_introl eq_refl)) Nc) as S.
      assert (forall x, In x r -> good x) as Gr by (intros; apply G; right; assumption).
      specialize (IH Gr).
      destruct (sum_one cl x) as [y| |]; cbn [rbind].
      + destruct S as (u & Rx & Hu).
        destruct (mapr (sum_one cl) r) as [ys| |]; cbn [rbind].
        * destruct IH as (xs & -> & RF & H). exists ((y, u) :: xs). split; [reflexivity|].
          split; [constructor; assumption|]. cbn [combine]. intros x' p l [E|Hin].
          -- inversion E; subst. apply Hu.
          -- apply H, Hin.
        * destruct IH as (x' & l & l' & H1 & H). exists x', l, l'. split; [right; exact H1 | exact H].
        * exact IH.
      + destruct S as (l & l' & H). exists x, l, l'. split; [left; reflexivity | exact H].
      + exact S.
  Qed.

  Lemma sum_all_ok net con :
    (forall x, In x net -> good x) -> (forall l, In l (flat_of net) -> l <> 0%Z) ->
    NoDup con -> (forall l, In l con <-> (0 < l)%Z /\ In l (flat_of net)) ->
    match sum_all net con with
    | Ok (net2, con2) =>
      inv net2 con2 (batch_of iter (flat_of net)) /\ length net2 = length net /\
      (forall l, (l < 0)%Z -> (In l (flat_of net) <-> In l (flat_of net2))) /\
      (forall a, in_range con net a -> einsum dim con net a = einsum dim con2 net2 a)
    | Raise => exists x l l', In x net /\ In l (snd x) /\ ~ In l' (snd x) /\ (0 < l)%Z /\ (0 < l')%Z /\
                 zcount (flat_of net) l = 1 /\ zcount (flat_of net) l' = 1
    | Fuel => False
    end.
  Proof.
    intros G Nz Nc Ic. unfold sum_all. set (cl := contractable (flat_of net)).
    pose proof (sum_mapr G (NoDup_contractable (flat_of net))) as S. fold cl in S.
    destruct (mapr (sum_one cl) net) as [ys| |]; cbn [rbind].
    2:{ destruct S as (x & l & l' & H1 & H2 & H3 & H4 & H5). exists x, l, l'.
        apply In_contractable in H3, H4. tauto. }
    2:{ exact S. }
    destruct S as (xs & -> & RF & HU).
    set (U := flat_map (fun p => snd p) xs).
    assert (forall l, In l U <-> In l cl) as UE.
    { intros l. unfold U. rewrite in_flat_map. split.
      - intros (p & Hp & Hl). destruct (Forall2_in_r RF Hp) as (x & Hcomb & _). apply (HU _ _ l Hcomb) in Hl. tauto.
      - intros Hl. apply In_contractable in Hl as Hl'. destruct Hl' as [C _].
        assert (In l (flat_of net)) as Hf by (apply zcount_in; lia).
        apply In_flat in Hf. destruct Hf as (x & Hx & Hlx).
        assert (exists p, In (x, p) (combine net xs)) as (p & Hcomb).
        { clear -Hx RF. induction RF as [|x0 p0 ? ? ? ? IH]; [destruct Hx|]. destruct Hx as [->|Hx].
          - exists p0. left. reflexivity.
          - destruct (IH Hx) as (p & Hp). exists p. right. exact Hp. }
        exists p. split; [eapply in_combine_r; exact Hcomb|]. apply (HU _ _ l Hcomb). auto. }
    assert (forall x p l, In (x, p) (combine net xs) -> In l (snd p) -> zcount (flat_of net) l = zcount (snd x) l) as Hc.
    { intros x p l Hcomb Hl. apply (HU _ _ l Hcomb) in Hl. destruct Hl as [Hl Hx].
      apply In_contractable in Hl. destruct Hl as [C _]. rewrite C.
      assert (In x net) as Hxn by (eapply in_combine_l; exact Hcomb).
      rewrite zcount_nodup by (apply G, Hxn). apply zmem_In in Hx. rewrite Hx. reflexivity. }
    assert (forall l, In l cl -> zcount (flat_of (map fst xs)) l = 0) as Gone.
    { intros l Hl. apply (parts_gone RF); [|apply UE, Hl]. intros x p Hcomb Hlp. apply (Hc x p l Hcomb Hlp). }
    assert (forall l, ~ In l cl -> zcount (flat_of (map fst xs)) l = zcount (flat_of net) l) as Keep.
    { intros l Hl. apply (parts_keep RF). fold U. rewrite UE. exact Hl. }
    assert (forall l, In l (flat_of (map fst xs)) <-> In l (flat_of net) /\ ~ In l cl) as Hflat.
    { intros l. rewrite (zcount_in (flat_of (map fst xs))), (zcount_in (flat_of net)).
      destruct (in_dec Z.eq_dec l cl) as [i|i]; [rewrite (Gone l i); split; [lia | tauto]|].
      rewrite (Keep l i). tauto. }
    split; [|split; [|split]].
    - constructor.
      + intros y Hy. apply in_map_iff in Hy. destruct Hy as (p & <- & Hp).
        destruct (Forall2_in_r RF Hp) as (x & _ & Rx). apply Rx.
      + intros l Hl. apply Hflat in Hl. apply Nz. tauto.
      + apply NoDup_filter, Nc.
      + intros l. rewrite filter_In, negb_true_iff, zmem_nIn, Ic, Hflat. tauto.
      + unfold batch_of. assert (NoDup (iter (nodup Z.eq_dec (flat_of net)))) as Ni by (apply (NoDup_iter iter_perm), NoDup_nodup).
        revert Ni. generalize (iter (nodup Z.eq_dec (flat_of net))) as m. generalize (flat_of net) as fl. clear.
        intros fl m. induction m as [|l r IH]; intros N; cbn [flat_map map]; [constructor|].
        inversion N as [|? ? Hn N']; subst. rewrite map_app. apply NoDup_app_iff.
        split; [dig; cbn; [constructor; [intros [] | constructor] | constructor]|].
        split; [apply IH, N'|]. intros z Hz Hz'.
        assert (z = l) as -> by (dif Hz; cbn in Hz; [destruct Hz as [<-|[]]; reflexivity | destruct Hz]).
        apply Hn. apply in_map_iff in Hz'. destruct Hz' as ([z c] & E & Hw). cbn in E. subst z.
        apply in_flat_map in Hw. destruct Hw as (v & Hv & Hw).
        dif Hw; cbn in Hw; [|destruct Hw]. destruct Hw as [Hw|[]]. inversion Hw; subst. exact Hv.
      + intros l c. unfold batch_of. rewrite in_flat_map.
        assert (forall b : bool, In (l, c) (if b then [(l, zcount (flat_of net) l)] else []) <-> b = true /\ c = zcount (flat_of net) l) as Aux.
        { intros b. destruct b; cbn; split.
          - intros [E|[]]. inversion E; auto.
          - intros [_ ->]. auto.
          - intros [].
          - intros [? _]; discriminate. }
        assert (forall l, (Nat.ltb 2 (zcount (flat_of net) l) || (Nat.eqb (zcount (flat_of net) l) 2 && (l <? 0)%Z)) = true ->
                  ~ In l cl) as Ncl.
        { intros l0 E Hl. apply In_contractable in Hl. destruct Hl as [C _]. rewrite C in E. discriminate. }
        split.
        * intros (l' & Hl' & H).
          assert (l' = l) as -> by (dif H; [destruct H as [H|[]]; inversion H; reflexivity | destruct H]).
          apply Aux in H. destruct H as [E ->].
          rewrite (Keep l (Ncl l E)). split; [reflexivity|].
          apply orb_true_iff in E. rewrite Nat.ltb_lt, andb_true_iff, Nat.eqb_eq, Z.ltb_lt in E.
          rewrite (In_iter iter_perm), nodup_In in Hl'. pose proof (Nz l Hl'). lia.
        * intros [-> H].
          assert (In l (flat_of (map fst xs))) as Hl by (apply zcount_in; lia).
          apply Hflat in Hl as Hl2. destruct Hl2 as [Hl2 Hn]. rewrite (Keep l Hn) in *.
          exists l. split; [rewrite (In_iter iter_perm); apply nodup_In, Hl2|].
          apply Aux. split; [|reflexivity].
          apply orb_true_iff. rewrite Nat.ltb_lt, andb_true_iff, Nat.eqb_eq, Z.ltb_lt. lia.
      + intros l Hl Hp. apply Hflat in Hl. destruct Hl as [Hl Hn]. rewrite (Keep l Hn).
        apply zcount_in in Hl. assert (zcount (flat_of net) l <> 1); [|lia].
        intros E. apply Hn, In_contractable. auto.
    - rewrite map_length. symmetry. clear -RF. induction RF; cbn; congruence.
    - intros l Hl. rewrite Hflat. unfold cl. rewrite In_contractable. intuition lia.
    - intros a Ra.
      assert (filter (fun o => negb (zmem o cl)) con = filter (fun o => negb (zmem o U)) con) as ->.
      { apply filter_In_ext. intros o _. f_equal. apply zmem_ext. symmetry. apply UE. }
      apply (parts_value RF (pre := [])); cbn [app].
      + exact Nc.
      + intros p l Hp Hl. apply Ic. assert (In l cl) as Hlc by (apply UE, in_flat_map; eauto).
        apply In_contractable in Hlc. split; [tauto|]. apply zcount_in. lia.
      + exact Hc.
      + exact Ra.
  Qed.

  (** ** _jittable_ncon *)
  Theorem jittable_ok net con out :
    well net -> NoDup con -> (forall l, In l con <-> (0 < l)%Z /\ In l (flat_of net)) ->
    NoDup out -> (forall l, In l out <-> (l < 0)%Z /\ In l (flat_of net)) ->
    match jittable_ncon iter net con out with
    | Ok t => shape t = map dim out /\
        forall a, (forall l, In l out -> a l < dim l) -> elt t (map a out) = einsum dim con net a
    | Raise => net = [] \/ (exists l, (0 < l)%Z /\ 2 < zcount (flat_of net) l) \/
               (exists l l' x, In x net /\ In l (snd x) /\ ~ In l' (snd x) /\ (0 < l)%Z /\ (0 < l')%Z /\
                 zcount (flat_of net) l = 1 /\ zcount (flat_of net) l' = 1)
    | Fuel => False
    end.
  Proof.
    intros W Nc Ic No Io. unfold jittable_ncon.
    destruct (trace_all_ok W Nc Ic) as (net1 & con1 & E1 & G1 & L1 & C1 & Nc1 & Ic1 & T1 & V1).
    rewrite E1. cbn [rbind].
    assert (forall l, In l (flat_of net1) -> In l (flat_of net)) as Sub1.
    { intros l Hl. rewrite zcount_in in *. destruct (C1 l) as [E|(_ & E & _)]; lia. }
    pose proof (@sum_all_ok net1 con1 G1 (fun l Hl => w_nz W (Sub1 l Hl)) Nc1 Ic1) as S.
    destruct (sum_all net1 con1) as [[net2 con2]| |]; cbn [rbind].
    2:{ right. right. destruct S as (y & l & l' & Hy & Hl & Hl' & Hp & Hp' & Q & Q').
        destruct (T1 y Hy) as (x & Hx & Hyx).
        exists l, l', x.
        assert (zcount (flat_of net) l = 1) as Ql by (destruct (C1 l) as [E|(_ & E & _)]; lia).
        assert (zcount (flat_of net) l' = 1) as Ql' by (destruct (C1 l') as [E|(_ & E & _)]; lia).
        repeat split; auto.
        - apply Hyx, Hl.
        - intros H. apply Hl', Hyx. split; [exact H|]. apply zcount_in. lia. }
    2:{ exact S. }
    destruct S as (I2 & L2 & S2 & V2).
    assert (length net2 + (length con2 + 1 - 0) <= length net2 + length con2 + 1) as Hf by lia.
    pose proof (loop_ok I2 Hf) as Lp.
    destruct (loop iter (length net2 + length con2 + 1) 0 net2 con2 (batch_of iter (flat_of net1))) as [[net3 batch]| |];
      cbn [rbind]; [| |exact Lp].
    2:{ right. left. destruct Lp as (l & Hp & Hb). exists l. split; [exact Hp|].
        unfold batch_of in Hb. apply in_map_iff in Hb. destruct Hb as ([l' c] & E & Hb). cbn in E. subst l'.
        apply in_flat_map in Hb. destruct Hb as (z & Hz & Hb).
        match type of Hb with context [if ?b then _ else _] => destruct b eqn:Eb end; [|destruct Hb]. destruct Hb as [Hb|[]]. inversion Hb; subst z.
        apply orb_true_iff in Eb. rewrite Nat.ltb_lt, andb_true_iff, Z.ltb_lt in Eb.
        destruct (C1 l) as [Ec|(_ & Ec & _)]; lia. }
    destruct Lp as (I3 & S3 & NE3 & V3).
    destruct (rev net3) as [|x r] eqn:Er.
    { left. destruct net as [|x net]; [reflexivity|]. exfalso.
      assert (net3 = []) as E3 by (rewrite <- (rev_involutive net3), Er; reflexivity).
      apply NE3; [|exact E3]. intros ->. cbn in L2. rewrite <- L2 in L1. discriminate. }
    assert (Permutation net3 (x :: r)) as P3 by (rewrite <- Er; apply Permutation_rev).
    assert (forall l, In l (flat_of net3) -> (l < 0)%Z) as Neg3.
    { intros l Hl. pose proof (i_nz I3 Hl). assert (~ (0 < l)%Z); [|lia].
      intros Hp. apply (proj2 (i_con I3 l)). auto. }
    destruct (@finish_ok (map fst batch) (i_bnd I3) r x) as (y & Ey & Gy & Hy & Vy).
    { intros z Hz. apply (i_good I3). eapply Permutation_in; [apply Permutation_sym; exact P3 | exact Hz]. }
    { intros l Hl. apply (inv_batch l I3). rewrite (zcount_perm l (flat_perm P3)).
      right. split; [|exact Hl]. apply Neg3. eapply Permutation_in; [apply Permutation_sym, flat_perm; exact P3|].
      apply zcount_in. lia. }
    rewrite Ey. cbn [rbind]. destruct y as [t ls]. cbn [snd] in *. destruct Gy as [Fy Ny]. cbn [snd] in Ny.
    assert (forall l, In l ls <-> In l out) as Hls.
    { intros l. rewrite Hy, Io.
      assert (In l (flat_of (x :: r)) <-> In l (flat_of net3)) as ->.
      { split; apply Permutation_in; [apply Permutation_sym|]; apply flat_perm, P3. }
      split.
      - intros H. pose proof (Neg3 l H) as Hn. split; [exact Hn|]. apply Sub1, S2, S3; assumption.
      - intros [Hn H]. apply S3, S2; try assumption.
        rewrite zcount_in in *. destruct (C1 l) as [E|(? & _)]; lia. }
    assert (forall a, (forall l, In l out -> a l < dim l) -> fval (t, ls) a = einsum dim con net a) as V.
    { intros a Ra. rewrite Vy by (intros l Hl; apply Ra, Hls, Hl).
      rewrite <- (netprod_perm a P3).
      assert (in_range con net a) as R0.
      { intros l Hl Hn. apply Ra, Io. split; [|exact Hl]. pose proof (w_nz W Hl). rewrite Ic in Hn. assert (~ (0 < l)%Z) by tauto. lia. }
      assert (in_range con1 net1 a) as R1.
      { intros l Hl Hn. apply Ra, Io. split; [|apply Sub1, Hl]. pose proof (w_nz W (Sub1 l Hl)). rewrite Ic1 in Hn. assert (~ (0 < l)%Z) by tauto. lia. }
      rewrite V1, V2, V3; try assumption; [reflexivity|].
      intros l Hl Hn. pose proof (i_nz I2 Hl). rewrite (i_con I2) in Hn.
      assert (~ (0 < l)%Z) by tauto. assert ((l < 0)%Z) by lia. apply Ra, Io. split; [assumption|]. apply Sub1, S2; assumption. }
    assert (Permutation out ls) as Po.
    { apply NoDup_Permutation; auto. intros l. symmetry. apply Hls. }
    unfold final_order. destruct (Nat.ltb_spec 1 (length ls)) as [Hlen|Hlen].
    - assert (forallb (fun l => zmem l ls) out = true) as ->.
      { apply forallb_forall. intros l Hl. apply zmem_In, Hls, Hl. }
      cbn [guard]. rewrite np_transpose_ok.
      + assert (gather 0%Z ls (map (fun l => zindex l ls) out) = out) as Go.
        { apply gather_zindex. intros l Hl. apply Hls, Hl. }
        assert (is_perm (length ls) (map (fun l => zindex l ls) out)) as Pp.
        { apply is_perm_intro.
          - rewrite map_length. apply Permutation_length, Po.
          - apply zindex_NoDup; [intros l Hl; apply Hls, Hl | exact No].
          - intros i Hi. eapply zindex_axes_lt; [|exact Hi]. intros l Hl. apply Hls, Hl. }
        split.
        * cbn [transpose shape]. rewrite (gather_shape Fy), Go; [reflexivity|].
          intros i Hi. apply (is_perm_In i Pp), Hi.
        * intros a Ra. rewrite <- (V a Ra).
          rewrite <- (@fval_transpose _ R t ls _ 0%Z a Pp). rewrite Go. reflexivity.
      + rewrite (fits_rank Fy). apply is_perm_intro.
        * rewrite map_length. apply Permutation_length, Po.
        * apply zindex_NoDup; [intros l Hl; apply Hls, Hl | exact No].
        * intros i Hi. eapply zindex_axes_lt; [|exact Hi]. intros l Hl. apply Hls, Hl.
    - assert (out = ls) as ->.
      { apply Permutation_length in Po as Lo. destruct ls as [|l0 [|]]; cbn in *; try lia.
        - destruct out; [reflexivity | discriminate].
        - apply Permutation_sym, Permutation_length_1_inv in Po. exact Po. }
      split; [exact Fy|]. exact V.
  Qed.
End Proof.
