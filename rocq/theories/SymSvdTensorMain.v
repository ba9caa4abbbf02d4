From Coq Require Import Permutation Reals List Lia Sorting.Sorted.
From Verif Require Import Prelude Algebra Tensor TensorFacts Res Charge ChargeFacts BlockSparse BlockSpec BstSpec ListFacts BlockFacts BlockDegen BlockReduce BlockMaps BlockTr BlockPart BstFacts BstConv BstDot BstTensordot BstOps SvdTrunc SvdTruncFacts SymSvd SymSvdFacts SymSvdMain SymSvdBond SymSvdTensor SymSvdTensorFacts SymSvdSpec.
Import ListNotations.
Set Implicit Arguments.
Unset Strict Implicit.

Lemma nth_map_lt A B (f : A -> B) l i d e : i < length l -> nth i (map f l) d = f (nth i l e).
Proof. intros H. rewrite (nth_indep _ d (f e)) by (rewrite map_length; exact H). apply map_nth. Qed.

Section Main.
  Context {G : chg} {K : csr}.
  Add Ring KringSM : (rsr K).
  Variables lim blim junk : nat.
  Hypothesis lim_pos : 0 < lim.
  Variable np_svd : nat -> nat -> list K -> mat K * list R * mat K.
  Variable inj : R -> K.

  (** the numpy contract for every block of the matrix m with row legs o0 and column legs o1 *)
  Definition blocks_contract (m : bst G K) (o0 o1 : list nat) : Prop :=
    let rows q := sector (row_legs (elegs m) (o0 ++ o1) (length o0)) q in
    let cols q := sector (col_legs (elegs m) (o0 ++ o1) (length o0)) (qinv q) in
    forall q, rows q <> [] -> cols q <> [] ->
      svd_ok inj (length (rows q)) (length (cols q)) (gather r0 (bdata m) (block (elegs m) (o0 ++ o1) (length o0) q))
        (np_svd (length (rows q)) (length (cols q)) (gather r0 (bdata m) (block (elegs m) (o0 ++ o1) (length o0) q))).

  Section Matrix.
    Variable m : bst G K.
    Variables o0 o1 : list nat.
    Hypothesis W : wf_bst m.
    Hypothesis Eo : bord m = [o0; o1].
    Hypothesis contract : blocks_contract m o0 o1.
    Notation L := (row_legs (elegs m) (o0 ++ o1) (length o0)).
    Notation C := (col_legs (elegs m) (o0 ++ o1) (length o0)).
    Variable B : blocks (G := G).
    Hypothesis EB : tr_blocks lim blim junk (bcs m) (bfs m) (length o0) (o0 ++ o1) = Ok B.
    Hypothesis HB : blocks_ok (elegs m) (o0 ++ o1) (length o0) B.
    Notation qs := (rep (bqs B)).
    Notation svs := (spectra np_svd m o0 o1 B).

    Lemma find_blocks : exists B', tr_blocks lim blim junk (bcs m) (bfs m) (length o0) (o0 ++ o1) = Ok B' /\ blocks_ok (elegs m) (o0 ++ o1) (length o0) B'.
    Proof.
      apply tr_blocks_spec; try assumption.
      - unfold all_ok. apply W.
      - apply W.
      - intros E. pose proof (m_p lim_pos W Eo contract) as P. pose proof (is_perm_length (m_perm W Eo)) as E'. rewrite E in E'. cbn in E'. lia.
      - pose proof (m_p lim_pos W Eo contract) as P. rewrite (is_perm_length (m_perm W Eo)) in P. lia.
      - apply (m_perm W Eo).
    Qed.

    Lemma spectra_ok : Forall (StronglySorted Rge) svs /\ Forall (Forall (Rle (IZR 0))) svs /\ Forall (fun s => s <> []) svs.
    Proof.
      unfold spectra. rewrite !Forall_map, !Forall_forall. repeat split; intros q Hq;
        pose proof (block_ok lim_pos W Eo contract HB Hq) as O; unfold svd_ok, ss in *; destruct (out np_svd m o0 o1 q) as [[u s] v]; cbn [fst snd]; apply O.
    Qed.

    Lemma truncation maxsv err relative : trunc_args (concat svs) maxsv err relative ->
      exists new disc, sym_truncate svs maxsv err relative = Ok (new, disc) /\ length new = length qs /\ length disc <= length qs /\
        (forall n, nth n new [] ++ nth n disc [] = nth n svs []) /\
        exists kept rest, truncate (all_values svs) maxsv err relative = Ok (kept, rest) /\ Permutation (concat new) kept /\ Permutation (concat disc) rest.
    Proof.
      intros (H1 & H2 & H3 & H4). destruct spectra_ok as (S1 & S2 & S3).
      assert (length svs = length qs) as LS by apply map_length.
      destruct (@sym_truncate_spec svs S1 S2 maxsv err relative S3) as (new & disc & kept & rest & E1 & E2 & E3 & E4 & E5 & E6 & E7); try assumption.
      - intros A A' E. apply (H1 A A'). rewrite E. reflexivity.
      - exists new, disc. rewrite <- LS. repeat split; try assumption. exists kept, rest. auto.
    Qed.

    Lemma reconstruct i j : i < nprod (ldims L) -> j < nprod (ldims C) ->
      lsum (bonds (map (@length R) svs)) (fun x => (u_at np_svd m o0 o1 B i x *! inj (nth (snd x) (nth (fst x) svs []) (IZR 0))) *! v_at np_svd m o0 o1 B x j) = elt (dense_of m) [i; j].
    Proof.
      intros Hi Hj. rewrite (m_elt W Eo). set (r := unravel (ldims L) i). set (c := unravel (ldims C) j).
      assert (valid r (ldims L)) as Vr by apply (@unravel_valid (ldims L) i Hi).
      assert (valid c (ldims C)) as Vc by apply (@unravel_valid (ldims C) j Hj).
      assert (length r = length L) as Lr by (rewrite (valid_length Vr); apply ldims_length).
      assert (length c = length C) as Lc by (rewrite (valid_length Vc); apply ldims_length).
      pose proof (m_perm W Eo) as Hp.
      assert (length (elegs m) = length (bcs m)) as LE by apply (wf_legs_length W).
      assert (charge_of (elegs m) (unperm 0 (o0 ++ o1) (r ++ c)) = qop (charge_of L r) (charge_of C c)) as Hch.
      { rewrite charge_of_unperm.
        - rewrite (gather_LC m o0 o1). apply charge_of_app. exact Lr.
        - rewrite LE. exact Hp.
        - rewrite app_length, Lr, Lc, (L_len W Eo), (C_len W Eo), LE, <- (is_perm_length Hp), app_length. reflexivity. }
      assert (length svs = length qs) as LS by apply map_length.
      destruct HB as (_ & _ & ND & _ & _ & Hin & _).
      unfold bonds. rewrite lsum_flat_map, map_length, LS.
      (* only the block of the charge of r contributes *)
      assert (forall n, n < length qs -> charge_of L r <> nth n qs qid ->
        lsum (map (pair n) (seq 0 (nth n (map (@length R) svs) 0))) (fun x => (u_at np_svd m o0 o1 B i x *! inj (nth (snd x) (nth (fst x) svs []) (IZR 0))) *! v_at np_svd m o0 o1 B x j) = r0) as Z.
      { intros n Hn Hq. apply lsum_zero. intros x Hx. apply in_map_iff in Hx as (l & <- & _). unfold u_at. cbn [fst]. fold r.
        destruct (qdec (charge_of L r) (nth n qs qid)) as [E|_]; [contradiction|]. ring. }
      destruct (in_dec qdec (charge_of L r) qs) as [Hq|Hq].
      - destruct (In_nth _ _ qid Hq) as (n & Hn & En).
        rewrite (@lsum_single K nat (seq 0 (length qs)) _ n); [| apply seq_NoDup | apply in_seq; lia |].
        2:{ intros n' Hn' Ne. apply in_seq in Hn'. apply Z; [lia|]. rewrite <- En. intros E. apply Ne. apply (proj1 (NoDup_nth qs qid) ND n' n); [lia | exact Hn | symmetry; exact E]. }
        rewrite lsum_map, nth_lens, (nth_spectra np_svd m o0 o1 Hn). set (q := nth n qs qid) in *.
        assert (In q qs) as Hqn by (apply nth_In; exact Hn).
        pose proof (block_ok lim_pos W Eo contract HB Hqn) as O. unfold svd_ok in O.
        destruct (out np_svd m o0 o1 q) as [[u s] v] eqn:EO. destruct O as (_ & _ & _ & _ & _ & _ & _ & O).
        assert (ss np_svd m o0 o1 q = s) as -> by (unfold ss; rewrite EO; reflexivity).
        unfold u_at, v_at, gu, gv. cbn [fst snd]. fold r c q.
        destruct (qdec (charge_of L r) q) as [_|]; [|congruence].
        destruct (qdec (charge_of C c) (qinv q)) as [Ec|Ec].
        + assert (In r (sector L q)) as Ir by (apply In_sector; split; [exact Vr | symmetry; exact En]).
          assert (In c (sector C (qinv q))) as Ic by (apply In_sector; split; [exact Vc | exact Ec]).
          assert (In (unperm 0 (o0 ++ o1) (r ++ c)) (allowed (elegs m))) as Ia.
          { apply In_allowed_unperm; [rewrite LE; exact Hp|]. rewrite (gather_LC m o0 o1). apply (@allowed_pairs _ L C q); assumption. }
          rewrite entry_allowed by exact Ia.
          transitivity (nsum (length s) (fun l => (m_at u (index_of ixdec r (sector L q)) l *! inj (nth l s (IZR 0))) *! m_at v l (index_of ixdec c (sector C (qinv q))))).
          * apply nsum_ext. intros l _. rewrite (nth_spectra np_svd m o0 o1 Hn). fold q. unfold ss, uu, vv. rewrite EO. reflexivity.
          * rewrite O by (apply index_of_lt; assumption). unfold gather, block. rewrite map_flat_map.
            rewrite (flat_map_ext_in (g := fun x => map (fun y => nth (pos (elegs m) (unperm 0 (o0 ++ o1) (x ++ y))) (bdata m) r0) (sector C (qinv q)))) by (intros; apply map_map).
            apply (@nth_pair_grid K (fun x y => nth (pos (elegs m) (unperm 0 (o0 ++ o1) (x ++ y))) (bdata m) r0)); assumption.
        + rewrite lsum_zero by (intros; ring). symmetry. apply entry_zero. rewrite Hch. intros E. apply Ec.
          rewrite En. rewrite <- (qidl (charge_of C c)), <- (qinvl (charge_of L r)), <- qassoc, E, qcomm. apply qidl.
      - rewrite lsum_zero.
        + symmetry. destruct (qdec (charge_of (elegs m) (unperm 0 (o0 ++ o1) (r ++ c))) qid) as [E|E]; [|apply entry_zero; exact E].
          exfalso. apply Hq. rewrite Hch in E.
          assert (charge_of C c = qinv (charge_of L r)) as Ec by (rewrite <- (qidl (charge_of C c)), <- (qinvl (charge_of L r)), <- qassoc, E, qcomm; apply qidl).
          apply Hin; intros E0.
          * assert (In r (sector L (charge_of L r))) as I by (apply In_sector; auto). rewrite E0 in I. exact I.
          * assert (In c (sector C (qinv (charge_of L r)))) as I by (apply In_sector; auto). rewrite E0 in I. exact I.
        + intros n Hn. apply in_seq in Hn. apply Z; [lia|]. intros E. apply Hq. rewrite E. apply nth_In. lia.
    Qed.

    Lemma spectra_ne : allowed (elegs m) <> [] -> concat svs <> [].
    Proof.
      intros Ha. assert (exists ix, In ix (allowed (elegs m))) as [ix Hix] by (destruct (allowed (elegs m)) as [|x r]; [congruence | exists x; left; reflexivity]).
      apply In_sector in Hix as [Vx Cx]. pose proof (m_perm W Eo) as Hp.
      assert (length (elegs m) = length (bcs m)) as LE by apply (wf_legs_length W).
      assert (length ix = length (elegs m)) as Lx by (rewrite (valid_length Vx); apply ldims_length).
      assert (In (gather 0 ix (o0 ++ o1)) (allowed (L ++ C))) as Hw.
      { rewrite <- (gather_LC m o0 o1). apply In_sector. split.
        - rewrite ldims_gather by (intros i Hi; rewrite LE; apply (is_perm_In i Hp), Hi). apply valid_gather; [exact Vx|].
          intros i Hi. rewrite ldims_length, LE. apply (is_perm_In i Hp), Hi.
        - rewrite <- charge_of_unperm; [| rewrite LE; exact Hp | rewrite gather_length, LE; apply (is_perm_length Hp)].
          rewrite unperm_gather by (rewrite Lx, LE; exact Hp). exact Cx. }
      rewrite allowed_app in Hw. apply in_flat_map in Hw as (r & Hr & Hc). apply in_map_iff in Hc as (c & _ & Hc). apply In_idxs in Hr.
      assert (In (charge_of L r) qs) as Hq.
      { destruct HB as (_ & _ & _ & _ & _ & Hin & _). apply Hin; intros E0.
        - assert (In r (sector L (charge_of L r))) as I by (apply In_sector; auto). rewrite E0 in I. exact I.
        - rewrite E0 in Hc. exact Hc. }
      destruct spectra_ok as (_ & _ & S3). rewrite Forall_forall in S3.
      assert (In (ss np_svd m o0 o1 (charge_of L r)) svs) as I by (apply in_map, Hq).
      specialize (S3 _ I). intros E. apply S3. apply in_split in I as (a & b & I). rewrite I, concat_app in E. cbn [concat] in E.
      apply app_eq_nil in E as [_ E]. apply app_eq_nil in E. apply E.
    Qed.

    (** a run with outcome [new], [disc] *)
    Lemma run maxsv err relative new disc : sym_truncate svs maxsv err relative = Ok (new, disc) ->
      length new = length qs -> length disc <= length qs -> (forall n, nth n new [] ++ nth n disc [] = nth n svs []) ->
      let bs := bonds (map (@length R) new) in
      exists U q V qd, sym_svd_matrix lim blim junk np_svd m maxsv err relative = Ok (U, (concat new, q), V, (concat disc, qd)) /\
        bc_ok q /\ rep q = map (fun x => nth (fst x) qs qid) bs /\
        length bs = length (concat new) /\ length (rep qd) = length (concat disc) /\
        bond_legs m U V (concat new) q /\ bord U = [seq 1 (length o0); [0]] /\ bord V = [[0]; seq 1 (length o1)] /\
        shape (dense_of U) = [nprod (ldims L); length (concat new)] /\ shape (dense_of V) = [length (concat new); nprod (ldims C)] /\
        (forall i b, i < nprod (ldims L) -> b < length (concat new) -> elt (dense_of U) [i; b] = u_at np_svd m o0 o1 B i (nth b bs (0, 0))) /\
        (forall b j, b < length (concat new) -> j < nprod (ldims C) -> elt (dense_of V) [b; j] = v_at np_svd m o0 o1 B (nth b bs (0, 0)) j).
    Proof.
      intros ET Ln Ld Hk bs.
      assert (forall l : list (list R), length (bonds (map (@length R) l)) = length (concat l)) as Lb by (intros l; rewrite (concat_bonds l (IZR 0)), map_length; reflexivity).
      destruct (@run_matrix G K lim blim junk lim_pos np_svd inj m o0 o1 W Eo contract B EB HB maxsv err relative new disc ET Ln Ld) as (U & q & V & qd & E1 & E2 & E3 & E4 & E5 & E6 & E7 & E8 & E9 & E10 & E11 & E12 & E13 & E14 & E15 & E16).
      { intros n. rewrite <- (Hk n), app_length. lia. }
      fold bs in E3, E13, E14, E15, E16. unfold bs in E13, E14. rewrite Lb in E13, E14.
      exists U, q, V, qd. split; [exact E1|]. split; [exact E2|]. split; [exact E3|]. split; [apply Lb|].
      split; [rewrite E4, map_length; apply Lb|]. split; [|split; [exact E9|]; split; [exact E12|]; split; [exact E13|]; split; [exact E14|]; split].
      - split; [exact E5|]. split; [exact E6|]. split; [rewrite E3, map_length; apply Lb|].
        exists (seq 1 (length o0)), (seq 1 (length o1)), o0, o1. rewrite Eo, E9, E12. cbn [concat]. rewrite !app_nil_r. repeat split; assumption.
      - intros i b Hi Hb. apply E15; [exact Hi | unfold bs; rewrite Lb; exact Hb].
      - intros b j Hb Hj. apply E16; [unfold bs; rewrite Lb; exact Hb | exact Hj].
    Qed.

    Theorem matrix_full : exists U q V qd,
      (forall relative, sym_svd_matrix lim blim junk np_svd m None None relative = Ok (U, (concat svs, q), V, ([], qd))) /\
      bc_ok q /\ rep q = map (fun x => nth (fst x) qs qid) (bonds (map (@length R) svs)) /\ rep qd = [] /\
      bond_legs m U V (concat svs) q /\ bord U = [seq 1 (length o0); [0]] /\ bord V = [[0]; seq 1 (length o1)] /\
      factors inj (dense_of m) [nprod (ldims L)] [nprod (ldims C)] (dense_of U) (concat svs) (dense_of V) /\
      (forall i b, i < nprod (ldims L) -> b < length (concat svs) -> elt (dense_of U) [i; b] = u_at np_svd m o0 o1 B i (nth b (bonds (map (@length R) svs)) (0, 0))) /\
      (forall b j, b < length (concat svs) -> j < nprod (ldims C) -> elt (dense_of V) [b; j] = v_at np_svd m o0 o1 B (nth b (bonds (map (@length R) svs)) (0, 0)) j).
    Proof.
      assert (length svs = length qs) as LS by apply map_length.
      destruct (@run None None false svs []) as (U & q & V & qd & E1 & E2 & E3 & E4 & E5 & E6 & E7 & E8 & E9 & E10 & E11 & E12); try assumption.
      { reflexivity. } { cbn. lia. } { intros n. destruct n; apply app_nil_r. }
      exists U, q, V, qd. split; [intros relative; transitivity (sym_svd_matrix lim blim junk np_svd m None None false); [reflexivity | exact E1]|].
      split; [exact E2|]. split; [exact E3|]. split; [apply length_zero_iff_nil; exact E5|]. split; [exact E6|]. split; [exact E7|]. split; [exact E8|].
      split; [|split; assumption].
      split; [exact E9|]. split; [exact E10|]. intros ix jx Vi Vj.
      destruct ix as [|i [|? ?]]; try (apply valid_length in Vi; discriminate). destruct jx as [|j [|? ?]]; try (apply valid_length in Vj; discriminate).
      inversion Vi; subst. inversion Vj; subst. cbn [app]. rewrite <- reconstruct by assumption.
      rewrite <- (nsum_nth _ (0, 0)), E4. apply nsum_ext. intros b Hb. rewrite E11, E12 by assumption. f_equal. f_equal. f_equal.
      rewrite (concat_bonds svs (IZR 0)). rewrite (nth_indep _ _ (nth (snd (0, 0)) (nth (fst (0, 0)) svs []) (IZR 0))) by (rewrite map_length, E4; exact Hb). 
      rewrite (map_nth (fun p => nth (snd p) (nth (fst p) svs []) (IZR 0))). reflexivity.
    Qed.

    Theorem matrix_trunc maxsv err relative : trunc_args (concat svs) maxsv err relative ->
      exists U s q V sd qd, sym_svd_matrix lim blim junk np_svd m maxsv err relative = Ok (U, (s, q), V, (sd, qd)) /\
        length (rep qd) = length sd /\
        bond_legs m U V s q /\ bord U = [seq 1 (length o0); [0]] /\ bord V = [[0]; seq 1 (length o1)] /\
        keeps_largest (concat svs) maxsv err relative s sd /\
        forall (Uf Vf : bst G K) (qf : bc G),
          rep qf = map (fun x => nth (fst x) qs qid) (bonds (map (@length R) svs)) ->
          (forall i b, i < nprod (ldims L) -> b < length (concat svs) -> elt (dense_of Uf) [i; b] = u_at np_svd m o0 o1 B i (nth b (bonds (map (@length R) svs)) (0, 0))) ->
          (forall b j, b < length (concat svs) -> j < nprod (ldims C) -> elt (dense_of Vf) [b; j] = v_at np_svd m o0 o1 B (nth b (bonds (map (@length R) svs)) (0, 0)) j) ->
          selects [nprod (ldims L)] [nprod (ldims C)] (dense_of Uf) (concat svs) (rep qf) (dense_of Vf) (dense_of U) s (rep q) (dense_of V).
    Proof.
      intros TA. destruct (truncation TA) as (new & disc & ET & Ln & Ld & Hk & kept & rest & EK & Pk & Pr).
      destruct (run ET Ln Ld Hk) as (U & q & V & qd & E1 & E2 & E3 & E4 & E5 & E6 & E7 & E8 & E9 & E10 & E11 & E12).
      exists U, (concat new), q, V, (concat disc), qd. split; [exact E1|]. split; [exact E5|]. split; [exact E6|]. split; [exact E7|]. split; [exact E8|]. split.
      { intros l Pl Sl. assert (l = all_values svs) as ->; [|exists kept, rest; auto].
        apply rge_unique; [exact Sl | apply all_sorted | rewrite Pl; symmetry; apply all_perm]. }
      intros Uf Vf qf Hq HU HV. split; [exact E9|]. split; [exact E10|].
      set (bs := bonds (map (@length R) new)) in *. set (bf := bonds (map (@length R) svs)) in *.
      assert (length svs = length qs) as LS by apply map_length.
      assert (length bf = length (concat svs)) as Lf by (unfold bf; rewrite (concat_bonds svs (IZR 0)), map_length; reflexivity).
      assert (forall n, length (nth n new []) <= length (nth n svs [])) as Hl by (intros n; rewrite <- (Hk n), app_length; lia).
      assert (forall x, In x bs -> In x bf) as Sub.
      { intros x Hx. apply In_bonds in Hx. apply In_bonds. rewrite map_length, nth_lens in *. specialize (Hl (fst x)). lia. }
      assert (forall x y : nat * nat, {x = y} + {x <> y}) as dec by (decide equality; apply Nat.eq_dec).
      exists (map (fun x => index_of dec x bf) bs).
      assert (forall b, b < length (concat new) -> nth (nth b (map (fun x => index_of dec x bf) bs) 0) bf (0, 0) = nth b bs (0, 0) /\ nth b (map (fun x => index_of dec x bf) bs) 0 < length (concat svs)) as Hn.
      { intros b Hb. rewrite <- E4 in Hb. rewrite (nth_indep _ 0 (index_of dec (0, 0) bf)) by (rewrite map_length; exact Hb).
        rewrite (map_nth (fun x => index_of dec x bf)). assert (In (nth b bs (0, 0)) bf) as I by (apply Sub, nth_In, Hb).
        split; [apply nth_index_of, I | rewrite <- Lf; apply index_of_lt, I]. }
      repeat split.
      - apply NoDup_map_in; [|apply NoDup_bonds]. intros a b Ha Hb E. rewrite <- (nth_index_of dec a bf (0, 0) (Sub a Ha)), E. apply nth_index_of, Sub, Hb.
      - intros b Hb. apply in_map_iff in Hb as (x & <- & Hx). rewrite <- Lf. apply index_of_lt, Sub, Hx.
      - unfold gather. rewrite map_map. rewrite (concat_bonds new (IZR 0)). fold bs. apply map_ext_in. intros x Hx.
        rewrite (concat_bonds svs (IZR 0)). fold bf.
        rewrite (@nth_map_lt _ _ _ bf _ _ (0, 0)) by (apply index_of_lt, Sub, Hx).
        rewrite nth_index_of by (apply Sub, Hx).
        rewrite <- (Hk (fst x)), app_nth1; [reflexivity|]. apply In_bonds in Hx. rewrite map_length, nth_lens in Hx. apply Hx.
      - rewrite E3, Hq. unfold gather. rewrite map_map. apply map_ext_in. intros x Hx.
        rewrite (@nth_map_lt _ _ _ bf _ _ (0, 0)) by (apply index_of_lt, Sub, Hx).
        rewrite nth_index_of by (apply Sub, Hx). reflexivity.
      - intros ix b Vi Hb. destruct ix as [|i [|? ?]]; try (apply valid_length in Vi; discriminate). inversion Vi; subst. cbn [app].
        destruct (Hn b Hb) as [N1 N2]. rewrite E11, HU, N1 by assumption. reflexivity.
      - intros b jx Hb Vj. destruct jx as [|j [|? ?]]; try (apply valid_length in Vj; discriminate). inversion Vj; subst.
        destruct (Hn b Hb) as [N1 N2]. rewrite E12, HV, N1 by assumption. reflexivity.
    Qed.
  End Matrix.

  Theorem matrix_svd (m : bst G K) (o0 o1 : list nat) : wf_bst m -> bord m = [o0; o1] -> blocks_contract m o0 o1 ->
    exists Uf sf qf Vf qd0,
      (forall relative, sym_svd_matrix lim blim junk np_svd m None None relative = Ok (Uf, (sf, qf), Vf, ([], qd0))) /\
      rep qd0 = [] /\ bond_legs m Uf Vf sf qf /\ bord Uf = [seq 1 (length o0); [0]] /\ bord Vf = [[0]; seq 1 (length o1)] /\
      factors inj (dense_of m) (firstn 1 (bshape m)) (skipn 1 (bshape m)) (dense_of Uf) sf (dense_of Vf) /\
      (allowed (elegs m) <> [] -> sf <> []) /\
      forall maxsv err relative, trunc_args sf maxsv err relative ->
        exists U s q V sd qd, sym_svd_matrix lim blim junk np_svd m maxsv err relative = Ok (U, (s, q), V, (sd, qd)) /\
          length (rep qd) = length sd /\ bond_legs m U V s q /\ bord U = [seq 1 (length o0); [0]] /\ bord V = [[0]; seq 1 (length o1)] /\
          keeps_largest sf maxsv err relative s sd /\
          selects (firstn 1 (bshape m)) (skipn 1 (bshape m)) (dense_of Uf) sf (rep qf) (dense_of Vf) (dense_of U) s (rep q) (dense_of V).
  Proof.
    intros W Eo contract. destruct (find_blocks W Eo contract) as (B & EB & HB).
    destruct (matrix_full W Eo contract EB HB) as (U & q & V & qd & E1 & E2 & E3 & E4 & E5 & E6 & E7 & E8 & E9 & E10).
    exists U, (concat (spectra np_svd m o0 o1 B)), q, V, qd.
    rewrite (wf_shape W), (m_shape W Eo). cbn [firstn skipn].
    do 6 (split; [assumption|]). split; [apply (spectra_ne W Eo contract HB)|]. intros maxsv err relative TA.
    destruct (matrix_trunc W Eo contract EB HB TA) as (U' & s & q' & V' & sd & qd' & F1 & F2 & F3 & F4 & F5 & F6 & F7).
    exists U', s, q', V', sd, qd'. do 6 (split; [assumption|]). apply F7; assumption.
  Qed.
End Main.
