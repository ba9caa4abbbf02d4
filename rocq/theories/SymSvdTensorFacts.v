From Coq Require Import Permutation Reals List Lia Sorting.Sorted.
From Verif Require Import Prelude Algebra Tensor TensorFacts Res Charge ChargeFacts BlockSparse BlockSpec BstSpec ListFacts BlockFacts BlockDegen BlockReduce BlockMaps BlockTr BlockPart BstFacts BstConv BstDot BstTensordot SvdTrunc SymSvd SymSvdBond SymSvdTensor.
Import ListNotations.
Set Implicit Arguments.
Unset Strict Implicit.

Section Facts.
  Context {G : chg} {K : csr}.
  Add Ring KringSS : (rsr K).
  Variables lim blim junk : nat.
  Hypothesis lim_pos : 0 < lim.
  Variable np_svd : nat -> nat -> list K -> mat K * list R * mat K.
  Variable inj : R -> K.

  (** what [np.linalg.svd] promises for one block *)
  Definition svd_ok (rows cols : nat) (M : list K) (o : mat K * list R * mat K) : Prop :=
    let '(u, s, v) := o in
    m_rows u = rows /\ m_cols u = length s /\ m_rows v = length s /\ m_cols v = cols /\
    s <> [] /\ StronglySorted Rge s /\ Forall (Rle 0) s /\
    forall i j, i < rows -> j < cols ->
      nsum (length s) (fun l => (m_at u i l *! inj (nth l s (IZR 0))) *! m_at v l j) = nth (i * cols + j) M r0.

  Section Matrix.
    Variable m : bst G K.
    Variables o0 o1 : list nat.
    Hypothesis W : wf_bst m.
    Hypothesis Eo : bord m = [o0; o1].
    Notation ls := (elegs m).
    Let p := length o0.
    Let order := o0 ++ o1.
    Let L := row_legs ls order p.
    Let C := col_legs ls order p.
    (** the decomposition of the block of charge q *)
    Definition out (q : G) := np_svd (length (sector (row_legs ls (o0 ++ o1) (length o0)) q)) (length (sector (col_legs ls (o0 ++ o1) (length o0)) (qinv q)))
      (gather r0 (bdata m) (block ls (o0 ++ o1) (length o0) q)).
    Definition uu q := fst (fst (out q)).
    Definition ss q := snd (fst (out q)).
    Definition vv q := snd (out q).
    Hypothesis contract : forall q, sector L q <> [] -> sector C (qinv q) <> [] ->
      svd_ok (length (sector L q)) (length (sector C (qinv q))) (gather r0 (bdata m) (block ls order p q)) (out q).

    Lemma m_order : concat (bord m) = order.
    Proof. rewrite Eo. cbn. rewrite app_nil_r. reflexivity. Qed.
    Lemma m_perm : is_perm (length (bcs m)) order.
    Proof. rewrite <- m_order. apply W. Qed.
    Lemma m_ne : o0 <> [] /\ o1 <> [].
    Proof. destruct W as (_ & _ & _ & _ & H). rewrite Eo in H. split; apply H; cbn; auto. Qed.
    Lemma m_p : 0 < p < length order.
    Proof. unfold p, order. rewrite app_length. destruct m_ne. destruct o0, o1; try congruence. cbn. lia. Qed.
    Lemma gather_order : gather ([], false) ls order = gather ([], false) ls o0 ++ gather ([], false) ls o1.
    Proof. apply gather_app_eq. Qed.
    Lemma L_eq : L = legs (gather (Raw []) (bcs m) o0) (gather false (bfs m) o0).
    Proof.
      unfold L, row_legs, p. rewrite gather_order. rewrite <- (map_length (fun i => nth i ls ([], false)) o0). fold (gather ([], false) ls o0).
      rewrite firstn_app, Nat.sub_diag, firstn_all. cbn [firstn]. rewrite app_nil_r. symmetry. apply legs_gather; [apply W|].
      intros i Hi. apply (is_perm_In i m_perm). apply in_or_app. left. exact Hi.
    Qed.
    Lemma C_eq : C = legs (gather (Raw []) (bcs m) o1) (gather false (bfs m) o1).
    Proof.
      unfold C, col_legs, p. rewrite gather_order. rewrite <- (map_length (fun i => nth i ls ([], false)) o0). fold (gather ([], false) ls o0).
      rewrite skipn_app, Nat.sub_diag, skipn_all. cbn [skipn app]. symmetry. apply legs_gather; [apply W|].
      intros i Hi. apply (is_perm_In i m_perm). apply in_or_app. right. exact Hi.
    Qed.
    Lemma gather_LC : gather ([], false) ls order = L ++ C.
    Proof. unfold L, C, row_legs, col_legs. symmetry. apply firstn_skipn. Qed.
    Lemma L_len : length L = p.
    Proof. rewrite L_eq, legs_length; unfold gather; rewrite !map_length; reflexivity. Qed.
    Lemma C_len : length C = length o1.
    Proof. rewrite C_eq, legs_length; unfold gather; rewrite !map_length; reflexivity. Qed.
    Lemma m_groups : map (gather 0 (ldims ls)) (bord m) = [ldims L; ldims C].
    Proof.
      rewrite Eo. cbn [map]. assert (length ls = length (bcs m)) as E by apply (wf_legs_length W).
      rewrite L_eq, C_eq. rewrite !legs_gather; try apply W.
      - rewrite !ldims_gather; [reflexivity | |]; intros i Hi; fold ls; rewrite ?E; try (unfold elegs in E; rewrite E); apply (is_perm_In i m_perm), in_or_app; auto.
      - intros i Hi; apply (is_perm_In i m_perm), in_or_app; auto.
      - intros i Hi; apply (is_perm_In i m_perm), in_or_app; auto.
    Qed.
    Lemma m_shape : shape (dense_of m) = [nprod (ldims L); nprod (ldims C)].
    Proof. rewrite dense_shape, m_groups. reflexivity. Qed.
    Lemma m_elt i j : elt (dense_of m) [i; j] = entry ls (bdata m) (unperm 0 order (unravel (ldims L) i ++ unravel (ldims C) j)).
    Proof. rewrite dense_elt, m_groups, m_order. cbn [split_index]. rewrite app_nil_r. reflexivity. Qed.

    (** *** the run of the function *)
    Section Run.
      Variable B : blocks (G := G).
      Hypothesis EB : tr_blocks lim blim junk (bcs m) (bfs m) p order = Ok B.
      Hypothesis HB : blocks_ok ls order p B.
      Notation qs := (rep (bqs B)).
      Definition spectra : list (list R) := map ss (rep (bqs B)).

      Lemma block_svds_eq : block_svds np_svd m B = map out qs.
      Proof.
        unfold block_svds. destruct HB as (_ & _ & _ & -> & -> & _). generalize qs. induction l as [|q r IH]; [reflexivity|].
        cbn [map combine]. rewrite IH. reflexivity.
      Qed.
      Lemma block_ne q : In q qs -> sector L q <> [] /\ sector C (qinv q) <> [].
      Proof. intros H. destruct HB as (_ & _ & _ & _ & _ & _ & H'). apply H', m_p. exact H. Qed.
      Lemma block_ok q : In q qs -> svd_ok (length (sector L q)) (length (sector C (qinv q))) (gather r0 (bdata m) (block ls order p q)) (out q).
      Proof. intros H. destruct (block_ne H). apply contract; assumption. Qed.

      Variables (maxsv : option nat) (err : option R) (relative : bool) (new disc : list (list R)).
      Hypothesis ET : sym_truncate spectra maxsv err relative = Ok (new, disc).
      Hypothesis Ln : length new = length qs.
      Hypothesis Ld : length disc <= length qs.
      Hypothesis Hk : forall n, length (nth n new []) <= length (nth n spectra []).
      Notation ks := (map (@length R) new).

      Lemma nth_out n d : n < length qs -> nth n (map out qs) d = out (nth n qs qid).
      Proof. intros H. apply nth_map_lt. exact H. Qed.
      Lemma nth_spectra n : n < length qs -> nth n spectra [] = ss (nth n qs qid).
      Proof. intros H. unfold spectra. apply nth_map_lt. exact H. Qed.

      Definition gu (x : nat * nat) (i : nat) : K := m_at (uu (nth (fst x) (rep (bqs B)) qid)) i (snd x).
      Definition gv (x : nat * nat) (i : nat) : K := m_at (vv (nth (fst x) (rep (bqs B)) qid)) (snd x) i.
      Lemma u_bond : u_data (map (fun o => fst (fst o)) (map out qs)) new = bond_data qs ks true L gu.
      Proof.
        rewrite (@u_data_bonds K r0).
        - unfold bond_data. apply flat_map_ext_in. intros x Hx. apply In_bonds in Hx as [H1 H2]. rewrite map_length, Ln in H1.
          rewrite map_map, (@nth_map_lt _ _ _ _ _ _ qid) by exact H1. unfold partner, gu.
          pose proof (@block_ok (nth (fst x) qs qid) ltac:(apply nth_In; exact H1)) as O. unfold svd_ok in O. unfold uu.
          destruct (out (nth (fst x) qs qid)) as [[u s] v]. destruct O as (E & _). cbn [fst snd]. rewrite E. reflexivity.
        - rewrite !map_length, Ln. reflexivity.
        - intros n Hn. rewrite Ln in Hn. rewrite map_map, (@nth_map_lt _ _ _ _ _ _ qid) by exact Hn.
          pose proof (@block_ok (nth n qs qid) ltac:(apply nth_In; exact Hn)) as O. unfold svd_ok in O.
          specialize (Hk n). rewrite nth_spectra in Hk by exact Hn. unfold ss in Hk.
          destruct (out (nth n qs qid)) as [[u s] v]. destruct O as (_ & E & _). cbn [fst snd] in *. rewrite E. exact Hk.
      Qed.
      Lemma v_bond : v_data (map (fun o => snd o) (map out qs)) new = bond_data qs ks false C gv.
      Proof.
        rewrite (@v_data_bonds K r0).
        - unfold bond_data. apply flat_map_ext_in. intros x Hx. apply In_bonds in Hx as [H1 H2]. rewrite map_length, Ln in H1.
          rewrite map_map, (@nth_map_lt _ _ _ _ _ _ qid) by exact H1. unfold partner, gv.
          pose proof (@block_ok (nth (fst x) qs qid) ltac:(apply nth_In; exact H1)) as O. unfold svd_ok in O. unfold vv.
          destruct (out (nth (fst x) qs qid)) as [[u s] v]. destruct O as (_ & _ & _ & E & _). cbn [fst snd]. rewrite E. reflexivity.
        - rewrite !map_length, Ln. reflexivity.
        - intros n Hn. rewrite Ln in Hn. rewrite map_map, (@nth_map_lt _ _ _ _ _ _ qid) by exact Hn.
          pose proof (@block_ok (nth n qs qid) ltac:(apply nth_In; exact Hn)) as O. unfold svd_ok in O.
          specialize (Hk n). rewrite nth_spectra in Hk by exact Hn. unfold ss in Hk.
          destruct (out (nth n qs qid)) as [[u s] v]. destruct O as (_ & _ & E & _). cbn [fst snd] in *. rewrite E. exact Hk.
      Qed.
      (** entries of U and V at bond position x *)
      Definition u_at (i : nat) (x : nat * nat) : K := let r := unravel (ldims L) i in let q := nth (fst x) (rep (bqs B)) qid in
        if qdec (charge_of L r) q then gu x (index_of ixdec r (sector L q)) else r0.
      Definition v_at (x : nat * nat) (j : nat) : K := let c := unravel (ldims C) j in let q := nth (fst x) (rep (bqs B)) qid in
        if qdec (charge_of C c) (qinv q) then gv x (index_of ixdec c (sector C (qinv q))) else r0.

      Lemma labels_lt l : length l <= length qs -> forall n, In n (bond_labels l) -> n < length (rep (bqs B)).
      Proof.
        intros H n Hn. rewrite bond_labels_bonds in Hn. apply in_map_iff in Hn as (x & <- & Hx). apply In_bonds in Hx as [Hx _]. rewrite map_length in Hx. lia.
      Qed.
      Lemma run_matrix : exists U q V qd,
        sym_svd_matrix lim blim junk np_svd m maxsv err relative = Ok (U, (concat new, q), V, (concat disc, qd)) /\
        bc_ok q /\ rep q = map (fun x => nth (fst x) qs qid) (bonds ks) /\
        rep qd = map (fun x => nth (fst x) qs qid) (bonds (map (@length R) disc)) /\
        wf_bst U /\ wf_bst V /\
        bcs U = q :: gather (Raw []) (bcs m) o0 /\ bfs U = true :: gather false (bfs m) o0 /\ bord U = [seq 1 (length o0); [0]] /\
        bcs V = q :: gather (Raw []) (bcs m) o1 /\ bfs V = false :: gather false (bfs m) o1 /\ bord V = [[0]; seq 1 (length o1)] /\
        shape (dense_of U) = [nprod (ldims L); length (bonds ks)] /\ shape (dense_of V) = [length (bonds ks); nprod (ldims C)] /\
        (forall i b, i < nprod (ldims L) -> b < length (bonds ks) -> elt (dense_of U) [i; b] = u_at i (nth b (bonds ks) (0, 0))) /\
        (forall b j, b < length (bonds ks) -> j < nprod (ldims C) -> elt (dense_of V) [b; j] = v_at (nth b (bonds ks) (0, 0)) j).
      Proof.
        unfold sym_svd_matrix. rewrite Eo. unfold flat_order. rewrite m_order. pose proof EB as EB'. unfold p in EB'. rewrite EB'. clear EB'. cbn [rbind].
        rewrite block_svds_eq. assert (map (fun o => snd (fst o)) (map out qs) = spectra) as -> by (rewrite map_map; reflexivity).
        rewrite ET. cbn [rbind fst snd].
        pose proof (proj1 HB) as Hbq.
        destruct (@bgetitem_rep G (bqs B) (bond_labels new) Hbq) as (q & -> & Hq & Rq); [apply labels_lt; lia|]. cbn [rbind].
        destruct (@bgetitem_rep G (bqs B) (bond_labels disc) Hbq) as (qd & -> & _ & Rqd); [apply labels_lt; exact Ld|]. cbn [rbind].
        rewrite u_bond, v_bond. rewrite bond_labels_bonds in Rq, Rqd. unfold gather in Rq, Rqd. rewrite map_map in Rq, Rqd.
        assert (forall o, (forall i, In i o -> In i order) -> all_ok (gather (Raw []) (bcs m) o)) as Hok by (intros; apply all_ok_gather; unfold all_ok; apply W).
        assert (forall o, length (gather (Raw []) (bcs m) o) = length o) as LG by (intros; apply map_length).
        assert (forall o, length (gather (Raw []) (bcs m) o) = length (gather false (bfs m) o)) as LG2 by (intros; unfold gather; rewrite !map_length; reflexivity).
        destruct m_ne as [N0 N1].
        assert (gather (Raw []) (bcs m) o0 <> []) as NG0 by (destruct o0; [congruence | discriminate]).
        assert (gather (Raw []) (bcs m) o1 <> []) as NG1 by (destruct o1; [congruence | discriminate]).
        pose proof (bond_wf true gu Hq Rq (Hok o0 ltac:(intros; apply in_or_app; auto)) (LG2 o0) NG0 (eq_sym L_eq)) as WU.
        pose proof (bond_wf false gv Hq Rq (Hok o1 ltac:(intros; apply in_or_app; auto)) (LG2 o1) NG1 (eq_sym C_eq)) as WV.
        unfold bond_tensor in WU, WV. rewrite LG in WU, WV.
        destruct (@btranspose_spec G K _ [1; 0] WU) as (U & EU & WU' & D1 & D2 & D3 & D4 & TU).
        { unfold ndim. cbn. apply perm_swap. }
        rewrite EU. cbn [rbind]. eexists U, q, _, qd. split; [reflexivity|].
        split; [exact Hq|]. split; [exact Rq|]. split; [exact Rqd|]. split; [exact WU'|]. split; [exact WV|].
        split; [exact D2|]. split; [exact D3|]. split; [exact D4|]. split; [reflexivity|]. split; [reflexivity|]. split; [reflexivity|].
        pose proof (bond_shape true gu Rq (LG2 o0) (eq_sym L_eq)) as SU. pose proof (bond_shape false gv Rq (LG2 o1) (eq_sym C_eq)) as SV.
        unfold bond_tensor in SU, SV. rewrite LG in SU, SV.
        destruct TU as [TS TE].
        assert (shape (dense_of U) = [nprod (ldims L); length (bonds ks)]) as SU'.
        { rewrite TS. unfold transpose. cbn [shape]. rewrite SU. reflexivity. }
        split; [exact SU'|]. split; [exact SV|]. split.
        - intros i b Hi Hb. rewrite TE by (rewrite SU'; constructor; [exact Hi | constructor; [exact Hb | constructor]]).
          unfold transpose. cbn [elt]. assert (unperm 0 [1; 0] [i; b] = [b; i]) as -> by reflexivity.
          pose proof (bond_elt true gu Rq (LG2 o0) (eq_sym L_eq) Hb Hi) as E. unfold bond_tensor in E. rewrite LG in E. exact E.
        - intros b j Hb Hj.
          pose proof (bond_elt false gv Rq (LG2 o1) (eq_sym C_eq) Hb Hj) as E. unfold bond_tensor in E. rewrite LG in E. exact E.
      Qed.
    End Run.
  End Matrix.
End Facts.
