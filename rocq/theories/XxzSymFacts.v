(** * Proofs about the symmetric XXZ Hamiltonian *)
From Coq Require Import ZArith Lia.
From Verif Require Import Prelude Algebra Tensor TensorFacts Res Charge ChargeFacts ChargeInst BlockSparse BlockSpec BstSpec BstConv BstMain BstExamples IndexOps Mpo MpoSpec MpoFacts MpoMain XxzSym.
Set Implicit Arguments.
Unset Strict Implicit.
Open Scope list_scope.
Open Scope nat_scope.

Section Facts.
  Context {R : csr}.
  Variables half mone : R.
  Notation bst := (bst Z_chg R).
  Notation index := (index (G := Z_chg)).
  Notation first := (xxz_first half mone).
  Notation bulk := (xxz_bulk half mone).
  Notation lst := (xxz_last half mone).
  Add Ring Rring : (rsr R).

  Lemma assigned_zero (l : list (list nat * R)) ix : ~ In ix (map fst l) -> assigned l ix = r0.
  Proof.
    induction l as [|[jx v] l IH]; intros H; [reflexivity|]. cbn [assigned]. cbn [map fst In] in H.
    destruct (existsb _ l); [apply IH; tauto|]. destruct (list_eq_dec Nat.eq_dec jx ix); [tauto|reflexivity].
  Qed.
  Lemma assigned_charge (f : list nat -> Z) (l : list (list nat * R)) ix :
    Forall (fun k => f k = 0%Z) (map fst l) -> f ix <> 0%Z -> assigned l ix = r0.
  Proof. intros H N. apply assigned_zero. intros Hin. rewrite Forall_forall in H. exact (N (H _ Hin)). Qed.

  (** the form of the dense tensors *)
  Definition chain_form (ts : list (tensor R)) : Prop := exists z x b mid bl,
    ts = first z x b :: mid ++ [lst bl] /\ Forall (fun t => exists z x b, t = bulk z x b) mid.
  Lemma xxz_form Jz Jxy Bz ts : finite_xxz half mone Jz Jxy Bz = Ok ts -> chain_form ts.
  Proof.
    unfold finite_xxz. destruct (read Bz 0) as [b0| |]; try discriminate. cbn [rbind].
    destruct (read Jxy 0) as [x0| |]; try discriminate. cbn [rbind].
    destruct (read Jz 0) as [z0| |]; try discriminate. cbn [rbind].
    match goal with |- rbind (mapr ?f ?l) _ = _ -> _ => remember l as sq; remember (mapr f sq) as m eqn:Em end.
    destruct m as [mid| |]; try discriminate. cbn [rbind]. clear Heqsq.
    destruct (read Bz (length Bz - 1)) as [bl| |]; try discriminate. cbn [rbind finite_mpo]. rewrite last_snoc.
    destruct (_ && _); [|discriminate]. intros E. injection E as <-. exists z0, x0, b0, mid, bl. split; [reflexivity|].
    symmetry in Em. revert mid Em. induction sq as [|n sq IH]; intros mid Em; cbn [mapr] in Em; [injection Em as <-; constructor|].
    destruct (read Bz n) as [b| |]; try discriminate. cbn [rbind] in Em.
    destruct (read Jxy n) as [x| |]; try discriminate. cbn [rbind] in Em.
    destruct (read Jz n) as [z| |]; try discriminate. cbn [rbind] in Em.
    match type of Em with rbind ?r _ = _ => destruct r as [mid'| |] end; try discriminate.
    injection Em as <-. constructor; [exists z, x, b; reflexivity|]. apply IH. reflexivity.
  Qed.

  (** a block-sparse tensor with the given indices and the entries of [t] *)
  Definition stands_for (b : bst) (t : tensor R) : Prop := wf_bst b /\ bord b <> [] /\ exists d, todense b = Ok d /\ teq d t.
  Definition has_legs (b : bst) (ixs : list index) : Prop :=
    bcs b = flat_map fst ixs /\ bfs b = flat_map snd ixs /\ bord b = groups_from 0 (map (fun i => length (fst i)) ixs).

  Lemma fromdense_stands (ixs : list index) s l :
    ixs <> [] -> forallb (wf_indexb (G := Z_chg)) ixs = true -> s = map (fun i => idim i) ixs ->
    Forall (fun I => charge_of (index_legs ixs) (split_index (index_dims ixs) I) = 0%Z) (map fst l) ->
    exists b, fromdense ixs (@arr R s l) = Ok b /\ stands_for b (arr s l) /\ has_legs b ixs.
  Proof.
    intros N W S F. pose proof (wf_indexb_ok W) as W'.
    destruct (@fromdense_spec Z_chg R ixs (arr s l) N W' S) as (b & E & Wb & H1 & H2 & H3 & _).
    exists b. split; [exact E|]. split; [|split; [exact H1|split; [exact H2|exact H3]]].
    assert (Nb : bord b <> []) by (rewrite H3; destruct ixs; [congruence|discriminate]).
    split; [exact Wb|]. split; [exact Nb|]. destruct (todense_total Wb Nb) as (d & Ed & _). exists d. split; [exact Ed|].
    apply (@fromdense_todense Z_chg R ixs (arr s l) b d N W' S); [|exact E|exact Ed].
    intros I _ HI. cbn [arr elt]. apply (@assigned_charge (fun I => charge_of (index_legs ixs) (split_index (index_dims ixs) I))); assumption.
  Qed.
  Ltac keys := cbn [map fst]; repeat (apply Forall_cons; [vm_compute; reflexivity|]); apply Forall_nil.
  Lemma first_sym z x b : exists t, fromdense [ileft; i2; i3; i4] (first z x b) = Ok t /\ stands_for t (first z x b) /\ has_legs t [ileft; i2; i3; i4].
  Proof. apply fromdense_stands; [discriminate|reflexivity|reflexivity|keys]. Qed.
  Lemma bulk_sym z x b : exists t, fromdense [i1; i2; i3; i4] (bulk z x b) = Ok t /\ stands_for t (bulk z x b) /\ has_legs t [i1; i2; i3; i4].
  Proof. apply fromdense_stands; [discriminate|reflexivity|reflexivity|keys]. Qed.
  Lemma last_sym b : exists t, fromdense [i1; iright; i3; i4] (lst b) = Ok t /\ stands_for t (lst b) /\ has_legs t [i1; iright; i3; i4].
  Proof. apply fromdense_stands; [discriminate|reflexivity|reflexivity|keys]. Qed.

  Lemma bshape_legs b ixs : has_legs b ixs -> bshape b = map (fun o => nprod (gather 0 (map (fun c => bdim c) (flat_map fst ixs)) o)) (groups_from 0 (map (fun i => length (fst i)) ixs)).
  Proof. intros (H1 & _ & H3). unfold bshape, edims. rewrite H1, H3. reflexivity. Qed.

  (** legs of the tensors of the chain *)
  Definition chain_legs (bs : list bst) : Prop := exists b mid l, bs = b :: mid ++ [l] /\
    has_legs b [ileft; i2; i3; i4] /\ Forall (fun t => has_legs t [i1; i2; i3; i4]) mid /\ has_legs l [i1; iright; i3; i4].

  Lemma mid_sym mid : Forall (fun t => exists z x b, t = bulk z x b) mid ->
    exists bs, mapr (fromdense [i1; i2; i3; i4]) mid = Ok bs /\ Forall2 stands_for bs mid /\ Forall (fun t => has_legs t [i1; i2; i3; i4]) bs.
  Proof.
    induction 1 as [|t mid (z & x & b & ->) _ (bs & E & F & L)]; [exists []; repeat constructor|].
    destruct (bulk_sym z x b) as (u & Eu & Su & Lu). exists (u :: bs). cbn [mapr]. rewrite Eu. cbn [rbind]. rewrite E.
    split; [reflexivity|]. split; constructor; assumption.
  Qed.

  Theorem sym_mpo_ok ts : chain_form ts -> exists bs, sym_mpo ts = Ok bs /\ Forall2 stands_for bs ts /\ chain_legs bs.
  Proof.
    intros (z & x & b & mid & bl & -> & Fm). destruct (first_sym z x b) as (u & Eu & Su & Lu).
    destruct (mid_sym Fm) as (bs & Em & Sm & Lm). destruct (last_sym bl) as (v & Ev & Sv & Lv).
    exists (u :: bs ++ [v]). unfold sym_mpo. rewrite Eu. cbn [rbind]. rewrite removelast_last, Em. cbn [rbind].
    rewrite last_snoc, Ev. cbn [rbind finite_mpo_sym]. rewrite last_snoc, (bshape_legs Lu), (bshape_legs Lv).
    split; [reflexivity|]. split.
    - constructor; [exact Su|]. apply Forall2_app; [exact Sm|constructor; [exact Sv|constructor]].
    - exists u, bs, v. split; [reflexivity|]. split; [exact Lu|]. split; [exact Lm|exact Lv].
  Qed.

  (** neighbours can be contracted *)
  Lemma compatible_legs b b' p q r w : has_legs b [p; i2; q; r] -> has_legs b' [i1; w; q; r] ->
    length (fst p) = 1 -> length (snd p) = 1 -> length (fst w) = 1 -> length (snd w) = 1 ->
    length (fst q) = 1 -> length (snd q) = 1 -> length (fst r) = 1 -> length (snd r) = 1 -> compatible b b' [1] [0].
  Proof.
    destruct p as [[|pc []] [|pf []]], w as [[|wc []] [|wf []]], q as [[|qc []] [|qf []]], r as [[|rc []] [|rf []]];
      try discriminate. intros H H' _ _ _ _ _ _ _ _. unfold compatible, con_legs, ndim. rewrite (bshape_legs H), (bshape_legs H').
    destruct H as (H1 & H2 & H3), H' as (H1' & H2' & H3'). rewrite H1, H1', H2, H2', H3, H3'.
    split; [reflexivity|]. split; [repeat constructor; intros []|]. split; [repeat constructor; intros []|].
    split; [intros i [<- | []]; cbn; lia|]. split; [intros i [<- | []]; cbn; lia|].
    split; [reflexivity|]. split; [reflexivity|]. split; [reflexivity|]. vm_compute. reflexivity.
  Qed.
  Lemma chain_neighbours : forall mid b l n u v,
    (exists p, length (fst p) = 1 /\ length (snd p) = 1 /\ has_legs b [p; i2; i3; i4]) ->
    Forall (fun t => has_legs t [i1; i2; i3; i4]) mid -> has_legs l [i1; iright; i3; i4] ->
    nth_error (b :: mid ++ [l]) n = Some u -> nth_error (b :: mid ++ [l]) (S n) = Some v -> compatible u v [1] [0].
  Proof.
    induction mid as [|m mid IH]; intros b l n u v (p & P1 & P2 & Hb) Hm Hl Hu Hv.
    - destruct n as [|[|n]]; cbn in Hu, Hv; try discriminate. injection Hu as <-. injection Hv as <-.
      apply (compatible_legs Hb Hl); reflexivity || assumption.
    - apply Forall_cons_iff in Hm. destruct Hm as [Hm Hr]. destruct n as [|n].
      + cbn in Hu, Hv. injection Hu as <-. injection Hv as <-. apply (compatible_legs Hb Hm); reflexivity || assumption.
      + apply (IH m l n u v); [exists i1; split; [reflexivity|split; [reflexivity|exact Hm]]|exact Hr|exact Hl|exact Hu|exact Hv].
  Qed.

  Theorem blocksparse_xxz_ok Jz Jxy Bz ts : finite_xxz half mone Jz Jxy Bz = Ok ts ->
    exists bs, blocksparse_xxz half mone Jz Jxy Bz = Ok bs /\ Forall2 stands_for bs ts /\
      forall n u v, nth_error bs n = Some u -> nth_error bs (S n) = Some v -> compatible u v [1] [0].
  Proof.
    intros E. unfold blocksparse_xxz. rewrite E. cbn [rbind]. destruct (sym_mpo_ok (xxz_form E)) as (bs & Eb & F & b & mid & l & -> & Lb & Lm & Ll).
    exists (b :: mid ++ [l]). split; [exact Eb|]. split; [exact F|]. intros n u v.
    apply chain_neighbours; [exists ileft; split; [reflexivity|split; [reflexivity|exact Lb]]|exact Lm|exact Ll].
  Qed.

  (** ** the conserved charge *)
  Definition bond_charge (a : nat) : Z := nth a [0; -1; 1; 0; 0]%Z 0%Z.
  Definition entry_charge (ix : list nat) : Z :=
    (bond_charge (nth 0 ix 0%nat) - bond_charge (nth 1 ix 0%nat) + Z.of_nat (nth 2 ix 0%nat) - Z.of_nat (nth 3 ix 0%nat))%Z.
  Definition zsum (l : list nat) : Z := fold_right (fun x a => (Z.of_nat x + a)%Z) 0%Z l.

  Lemma form_charge ts t : chain_form ts -> In t ts -> forall ix, entry_charge ix <> 0%Z -> elt t ix = r0.
  Proof.
    intros (z & x & b & mid & bl & -> & Fm) Ht ix Hix. destruct Ht as [<- | Ht].
    - apply (@assigned_charge entry_charge); [keys|exact Hix].
    - apply in_app_or in Ht. destruct Ht as [Ht | [<- | []]].
      + rewrite Forall_forall in Fm. destruct (Fm t Ht) as (z' & x' & b' & ->). apply (@assigned_charge entry_charge); [keys|exact Hix].
      + apply (@assigned_charge entry_charge); [keys|exact Hix].
  Qed.
  Lemma chain_conserved : forall (ts : list (tensor R)), (forall t, In t ts -> forall ix, entry_charge ix <> 0%Z -> elt t ix = r0) ->
    forall l s s', ts <> [] -> nth 1 (shape (last ts (arr [] []))) 0 = 1 -> length s = length ts -> length s' = length ts ->
    (bond_charge l + zsum s <> zsum s')%Z -> chain ts l s s' = r0.
  Proof.
    induction ts as [|t ts IH]; intros H l s s' N E1 Ls Ls' Hq; [congruence|].
    destruct s as [|i s]; [discriminate|]. destruct s' as [|j s']; [discriminate|]. cbn [zsum fold_right] in Hq. fold (zsum s) (zsum s') in Hq.
    cbn [chain nth tl]. apply nsum_zero. intros b Hb.
    destruct (Z.eq_dec (entry_charge [l; b; i; j]) 0) as [Z0|NZ].
    - unfold entry_charge in Z0. cbn [nth] in Z0. destruct ts as [|u ts].
      + cbn [last] in E1. rewrite E1 in Hb. assert (b = 0) as -> by lia. change (bond_charge 0) with 0%Z in Z0.
        destruct s; [|discriminate]. destruct s'; [|discriminate]. change (zsum []) with 0%Z in Hq. lia.
      + rewrite (IH (fun t Ht => H t (or_intror Ht))); [ring|discriminate|exact E1|injection Ls as ->; reflexivity|injection Ls' as ->; reflexivity|lia].
    - rewrite (H t (or_introl eq_refl) _ NZ). ring.
  Qed.
  Lemma form_last ts : chain_form ts -> ts <> [] /\ nth 1 (shape (last ts (arr [] []))) 0 = 1.
  Proof. intros (z & x & b & mid & bl & -> & _). split; [discriminate|]. rewrite last_snoc. reflexivity. Qed.

  (** ** equal tensors have equal contractions *)
  Fixpoint shapes_from (L : nat) (ts : list (tensor R)) : Prop :=
    match ts with [] => True | t :: r => exists D, shape t = [L; D; 2; 2] /\ shapes_from D r end.
  Lemma form_shapes ts : chain_form ts -> shapes_from 1 ts.
  Proof.
    intros (z & x & b & mid & bl & -> & Fm). exists 5. split; [reflexivity|].
    induction Fm as [|t mid (z' & x' & b' & ->) _ IH]; [exists 1; split; [reflexivity|exact I]|exists 5; split; [reflexivity|exact IH]].
  Qed.
  Lemma chain_teq ds ts : Forall2 (fun d t : tensor R => teq d t) ds ts -> forall L l s s', shapes_from L ts -> l < L ->
    spins (length ts) s -> spins (length ts) s' -> chain ds l s s' = chain ts l s s'.
  Proof.
    induction 1 as [|d t ds ts [S V] _ IH]; intros L l s s' HS Hl Hs Hs'; [reflexivity|].
    destruct HS as (D & ES & HS). cbn [chain]. rewrite S. apply nsum_ext. intros b Hb. rewrite ES in Hb. cbn [nth] in Hb.
    destruct Hs as [Ls Fs], Hs' as [Ls' Fs']. destruct s as [|i s]; [discriminate|]. destruct s' as [|j s']; [discriminate|].
    apply Forall_cons_iff in Fs, Fs'. destruct Fs as [Hi Fs], Fs' as [Hj Fs']. cbn [nth tl].
    rewrite V; [|rewrite S, ES; apply Forall2_cons; [exact Hl|apply Forall2_cons; [exact Hb|apply Forall2_cons; [exact Hi|apply Forall2_cons; [exact Hj|apply Forall2_nil]]]]].
    rewrite (IH D b s s' HS Hb); [reflexivity| |]; split; try assumption; cbn in Ls, Ls'; lia.
  Qed.

  Theorem blocksparse_xxz_hamiltonian Jz Jxy Bz N : length Bz = N -> 2 <= N -> N - 1 <= length Jz -> N - 1 <= length Jxy ->
    exists bs ds, blocksparse_xxz half mone Jz Jxy Bz = Ok bs /\ Forall2 (fun b d => todense b = Ok d) bs ds /\ length ds = N /\ forall s s', spins N s -> spins N s' ->
        mpo_entry ds s s' = H_xxz half mone (at_ Jz) (at_ Jxy) (at_ Bz) N s s'.
  Proof.
    intros HN H2 Hz Hx. destruct (xxz_ok half mone HN H2 Hz Hx) as (ts & E & L & V). destruct (blocksparse_xxz_ok E) as (bs & Eb & F & _).
    assert (exists ds, Forall2 (fun b d => todense b = Ok d) bs ds /\ Forall2 (fun d t : tensor R => teq d t) ds ts) as (ds & D & T).
    { clear - F. induction F as [|b t bs ts (_ & _ & d & Ed & Td) _ (ds & D & T)]; [exists []; split; constructor|].
      exists (d :: ds). split; constructor; assumption. }
    exists bs, ds. split; [exact Eb|]. split; [exact D|].
    assert (Ld : length ds = length ts) by (clear - T; induction T; cbn [length]; congruence).
    split; [congruence|]. intros s s' Hs Hs'. rewrite <- (V s s' Hs Hs'), !mpo_entry_chain.
    rewrite <- L in Hs, Hs'. exact (chain_teq T (form_shapes (xxz_form E)) Nat.lt_0_1 Hs Hs').
  Qed.

  (** the Hamiltonian conserves the number of spins that point up *)
  Theorem xxz_conserved Jz Jxy Bz N s s' : length Bz = N -> 2 <= N -> N - 1 <= length Jz -> N - 1 <= length Jxy ->
    spins N s -> spins N s' -> list_sum s <> list_sum s' ->
    H_xxz half mone (at_ Jz) (at_ Jxy) (at_ Bz) N s s' = r0.
  Proof.
    intros HN H2 Hz Hx Hs Hs' Hq. destruct (xxz_ok half mone HN H2 Hz Hx) as (ts & E & L & V).
    rewrite <- (V s s' Hs Hs'), mpo_entry_chain. pose proof (xxz_form E) as Fm. destruct (form_last Fm) as [N0 E1].
    apply (chain_conserved (fun t Ht => form_charge Fm Ht) N0 E1); [rewrite L; apply Hs|rewrite L; apply Hs'|].
    assert (Zs : forall l, zsum l = Z.of_nat (list_sum l)).
    { induction l as [|x l IH]; [reflexivity|]. cbn [zsum fold_right]. fold (zsum l). rewrite IH. cbn [list_sum fold_right]. fold (list_sum l). lia. }
    rewrite !Zs. change (bond_charge 0) with 0%Z. lia.
  Qed.
End Facts.
