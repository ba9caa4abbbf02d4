(** * SymTraceLoop: the contractions of all pairs of legs sum over all their labels *)
From Coq Require Import Permutation List Lia Arith Sorting.Sorted.
From Verif Require Import Prelude Algebra Tensor TensorFacts Einsum EinsumFacts Res Charge ChargeFacts BlockSparse BlockSpec BstSpec ListFacts BlockFacts BlockMaps BstFacts BstConv BstDot BstTensordot BstOps SymLinalg SymLinalgSpec SymTrace.
Import ListNotations.
Set Implicit Arguments.
Unset Strict Implicit.

Lemma filter_index (l : list nat) (P : nat -> bool) : map (fun k => nth k l 0) (filter (fun k => P (nth k l 0)) (seq 0 (length l))) = filter P l.
Proof.
  assert (forall (f : nat -> nat) s, map f (filter (fun k => P (f k)) s) = filter P (map f s)) as H.
  { intros f s. induction s as [|x s IH]; [reflexivity|]. cbn [map filter]. destruct (P (f x)); cbn [map]; rewrite IH; reflexivity. }
  rewrite H. f_equal. apply (gather_seq 0 l).
Qed.
Lemma free_axes_NoDup n ax : NoDup (free_axes n ax).
Proof. apply NoDup_filter, seq_NoDup. Qed.
Lemma mem_eq (x y : nat) (l m : list nat) : (In x l <-> In y m) -> mem x l = mem y m.
Proof.
  intros H. destruct (mem x l) eqn:E1, (mem y m) eqn:E2; try reflexivity; exfalso.
  - apply mem_In in E1. apply mem_nIn in E2. tauto.
  - apply mem_nIn in E1. apply mem_In in E2. tauto.
Qed.
(** the axes left after two steps *)
Lemma free_free i j n (S : list nat) : i <> j -> i < n -> j < n -> (forall s, In s S -> s < n /\ s <> i /\ s <> j) ->
  gather 0 (free_axes n [i; j]) (free_axes (length (free_axes n [i; j])) (map (shift_axis i j) S)) = free_axes n (i :: j :: S).
Proof.
  intros N Hi Hj HS. unfold gather. unfold free_axes at 2.
  rewrite (@filter_ext_in _ (fun k => negb (mem k (map (shift_axis i j) S))) (fun k => negb (mem (nth k (free_axes n [i; j]) 0) S))).
  - rewrite (filter_index (free_axes n [i; j]) (fun p => negb (mem p S))). unfold free_axes. rewrite ListFacts.filter_filter. apply filter_ext. intros k. rewrite <- negb_orb. f_equal.
    change (i :: j :: S) with ([i; j] ++ S). apply eq_true_iff_eq. rewrite orb_true_iff, !mem_In, in_app_iff. reflexivity.
  - intros k Hk. apply in_seq in Hk. f_equal. apply mem_eq. rewrite in_map_iff. split.
    + intros (s & <- & Hs). destruct (HS s Hs) as (A & B & C). destruct (shift_pos N Hi Hj A B C) as [_ ->]. exact Hs.
    + intros Hs. exists (nth k (free_axes n [i; j]) 0). split; [|exact Hs]. destruct (HS _ Hs) as (A & B & C).
      destruct (shift_pos N Hi Hj A B C) as [D E]. apply (proj1 (NoDup_nth _ 0) (free_axes_NoDup n [i; j]) _ _ D); [lia | exact E].
Qed.

Section Loop.
  Context {G : chg} {K : csr}.
  Add Ring KringL : (rsr K).
  Variables lim blim junk : nat.
  Hypothesis lim_pos : 0 < lim.
  Variable emp : K.
  Notation bst := (bst G K).
  Notation fvl := (@fval nat K).
  Notation esm := (@esum nat Nat.eq_dec K).

  (** two axes carry opposite legs *)
  Definition opposite (t : bst) (i j : nat) : Prop := same_charge (charge_at t j) (charge_at t i) /\ flow_at t j = negb (flow_at t i).

  Theorem trace_loop_spec dim : forall fuel a0 a1 (t : bst) ls, length a0 <= fuel -> length a1 = length a0 -> wf_bst t -> singles t ->
    length ls = ndim t -> fits dim (dense_of t, ls) -> NoDup (a0 ++ a1) -> (forall p, In p (a0 ++ a1) -> p < ndim t) ->
    (forall i j, In (i, j) (combine a0 a1) -> opposite t i j /\ nth j ls 0 = nth i ls 0 /\ forall p, p < ndim t -> nth p ls 0 = nth i ls 0 -> p = i \/ p = j) ->
    exists u, trace_loop lim blim junk emp fuel t a0 a1 = Ok u /\ wf_bst u /\ singles u /\
      let F := free_axes (ndim t) (a0 ++ a1) in
      ndim u = length F /\ (forall k, k < ndim u -> charge_at u k = charge_at t (nth k F 0) /\ flow_at u k = flow_at t (nth k F 0)) /\
      (a0 <> [] \/ bord t = map (fun p => [p]) (seq 0 (ndim t)) -> bord u = map (fun p => [p]) (seq 0 (ndim u))) /\
      fits dim (dense_of u, gather 0 ls F) /\
      forall a, (forall x, In x ls -> ~ In x (gather 0 ls a0) -> a x < dim x) -> fvl (dense_of u, gather 0 ls F) a = esm dim (gather 0 ls a0) (fvl (dense_of t, ls)) a.
  Proof.
    assert (forall a1 fuel (t : bst) ls, length a1 = 0 -> wf_bst t -> singles t -> length ls = ndim t -> fits dim (dense_of t, ls) ->
      exists u, trace_loop lim blim junk emp fuel t [] a1 = Ok u /\ wf_bst u /\ singles u /\
      let F := free_axes (ndim t) ([] ++ a1) in
      ndim u = length F /\ (forall k, k < ndim u -> charge_at u k = charge_at t (nth k F 0) /\ flow_at u k = flow_at t (nth k F 0)) /\
      (@nil nat <> [] \/ bord t = map (fun p => [p]) (seq 0 (ndim t)) -> bord u = map (fun p => [p]) (seq 0 (ndim u))) /\
      fits dim (dense_of u, gather 0 ls F) /\
      forall a, (forall x, In x ls -> ~ In x (gather 0 ls []) -> a x < dim x) -> fvl (dense_of u, gather 0 ls F) a = esm dim (gather 0 ls []) (fvl (dense_of t, ls)) a) as H0.
    { clear. intros a1 fuel t ls Hl W S Ll Ft. apply length_zero_iff_nil in Hl. subst a1. exists t.
      assert (free_axes (ndim t) [] = seq 0 (ndim t)) as EF. { apply filter_all. intros; reflexivity. }
      cbn [app]. rewrite EF, seq_length. split; [destruct fuel; reflexivity|]. split; [exact W|]. split; [exact S|]. cbv zeta. split; [reflexivity|].
      split; [intros k Hk; rewrite seq_nth by exact Hk; split; reflexivity|]. split; [intros [H|H]; [congruence | exact H]|].
      rewrite <- Ll, gather_seq. split; [exact Ft | reflexivity]. }
    induction fuel as [|fuel IH]; intros a0 a1 t ls Hf Hl W S Ll Ft ND RG HP.
    { assert (a0 = []) as -> by (apply length_zero_iff_nil; lia). apply H0; assumption. }
    destruct a0 as [|i a0]; [apply H0; assumption|].
    - destruct a1 as [|j a1]; [discriminate|].
      assert (Permutation ((i :: a0) ++ j :: a1) (i :: j :: a0 ++ a1)) as PM by (cbn [app]; constructor; symmetry; apply Permutation_middle).
      pose proof (Permutation_NoDup PM ND) as ND'. inversion ND' as [|? ? Ni ND1]; subst. inversion ND1 as [|? ? Nj ND2]; subst.
      assert (i <> j) as Nij by (intros E; apply Ni; left; symmetry; exact E).
      assert (i < ndim t) as Hi by (apply RG; left; reflexivity).
      assert (j < ndim t) as Hj by (apply RG, in_or_app; right; left; reflexivity).
      destruct (HP i j (or_introl eq_refl)) as ((SC & FL) & Elab & Uq).
      destruct (@trace_step G K lim blim junk lim_pos emp t i j W S Hi Hj Nij SC FL) as (id & t' & E1 & E2 & W' & S' & N' & C' & F' & O' & T').
      set (F1 := free_axes (ndim t) [i; j]) in *.
      assert (forall k, In k F1 -> k < ndim t) as RF by (intros k Hk; apply In_free_axes in Hk; apply Hk).
      assert (forall p, In p (a0 ++ a1) -> p < ndim t /\ p <> i /\ p <> j) as OT.
      { intros p Hp. split; [apply RG; cbn [app]; right; apply in_app_or in Hp; apply in_or_app; destruct Hp; [left | right; right]; assumption|].
        split; intros ->; [apply Ni; right; exact Hp | apply Nj, Hp]. }
      assert (forall k, k < ndim t' -> leg_at t' k = k) as LA.
      { intros k Hk. unfold leg_at. rewrite O'. rewrite (nth_map_lt _ [] 0) by (rewrite seq_length; exact Hk). rewrite seq_nth by exact Hk. reflexivity. }
      assert (forall k, k < ndim t' -> charge_at t' k = charge_at t (nth k F1 0) /\ flow_at t' k = flow_at t (nth k F1 0)) as CF.
      { intros k Hk. unfold charge_at at 1. unfold flow_at at 1. rewrite LA by exact Hk. rewrite C', F'. split; apply nth_map_lt; rewrite <- N'; exact Hk. }
      assert (forall p, In p (a0 ++ a1) -> shift_axis i j p < ndim t' /\ nth (shift_axis i j p) F1 0 = p) as SH.
      { intros p Hp. destruct (OT p Hp) as (A & B & C). rewrite N'. apply shift_pos; assumption. }
      set (ls' := gather 0 ls F1).
      assert (free_labels 0 ls [i; j] = ls') as EFL by (unfold free_labels, ls', F1; rewrite Ll; reflexivity).
      assert (forall k, k < length F1 -> nth k ls' 0 = nth (nth k F1 0) ls 0) as NL by (intros k Hk; unfold ls'; apply nth_gather; exact Hk).
      pose proof (@fits_trace2 nat K dim (dense_of t) ls i j 0 Ft) as Ft'. rewrite EFL in Ft'.
      assert (fits dim (dense_of t', ls')) as Ft2 by (unfold fits in *; cbn [fst snd] in *; rewrite (proj1 T'); exact Ft').
      destruct (IH (map (shift_axis i j) a0) (map (shift_axis i j) a1) t' ls') as (u & Eu & Wu & Su & Nu & Cu & Ou & Fu & Vu).
      + rewrite map_length. cbn in Hf. lia.
      + rewrite !map_length. cbn in Hl. lia.
      + exact W'.
      + exact S'.
      + unfold ls'. rewrite gather_length, N'. reflexivity.
      + exact Ft2.
      + rewrite <- map_app. apply NoDup_map_in; [|exact ND2]. intros x y Hx Hy E. destruct (SH x Hx) as [_ <-]. destruct (SH y Hy) as [_ <-]. rewrite E. reflexivity.
      + rewrite <- map_app. intros p Hp. apply in_map_iff in Hp. destruct Hp as (q & <- & Hq). apply SH, Hq.
      + intros x y Hxy. assert (exists p q, In (p, q) (combine a0 a1) /\ x = shift_axis i j p /\ y = shift_axis i j q) as (p & q & Hpq & -> & ->).
        { clear - Hxy. revert a1 Hxy. induction a0 as [|p a0 IH]; intros [|q a1] H; cbn in H; try contradiction. destruct H as [H|H].
          - injection H as <- <-. exists p, q. split; [left; reflexivity | split; reflexivity].
          - destruct (IH _ H) as (p' & q' & H1 & H2 & H3). exists p', q'. split; [right; exact H1 | split; assumption]. }
        destruct (HP p q (or_intror Hpq)) as ((SC2 & FL2) & El2 & Uq2).
        assert (In p (a0 ++ a1)) as Ip by (apply in_or_app; left; apply (in_combine_l _ _ _ _ Hpq)).
        assert (In q (a0 ++ a1)) as Iq by (apply in_or_app; right; apply (in_combine_r _ _ _ _ Hpq)).
        destruct (SH p Ip) as [Sp Np]. destruct (SH q Iq) as [Sq Nq]. destruct (CF _ Sp) as [Cp Fp]. destruct (CF _ Sq) as [Cq Fq]. rewrite Np in Cp, Fp. rewrite Nq in Cq, Fq.
        split; [split; [rewrite Cp, Cq; exact SC2 | rewrite Fp, Fq; exact FL2]|].
        rewrite N' in Sp, Sq. rewrite !NL by assumption. rewrite Np, Nq. split; [exact El2|]. intros k Hk Ek. rewrite N' in Hk. rewrite NL in Ek by exact Hk.
        assert (k = shift_axis i j (nth k F1 0)) as Ekk.
        { assert (In (nth k F1 0) F1) as Ik by (apply nth_In, Hk). apply In_free_axes in Ik. destruct Ik as [I1 I2].
          destruct (@shift_pos i j (ndim t) (nth k F1 0) Nij Hi Hj I1) as [D E]; [intros E; apply I2; left; symmetry; exact E | intros E; apply I2; right; left; symmetry; exact E|].
          apply (proj1 (NoDup_nth F1 0) (free_axes_NoDup _ _)); [exact Hk | exact D | symmetry; exact E]. }
        destruct (Uq2 _ (RF _ (nth_In _ 0 Hk)) Ek) as [E|E]; [left | right]; rewrite Ekk, E; reflexivity.
      + exists u. split.
        { cbn [trace_loop]. rewrite (single_group S Hi). unfold charge_at, flow_at in E1. rewrite E1. cbn [rbind]. rewrite E2. cbn [rbind]. exact Eu. }
        split; [exact Wu|]. split; [exact Su|]. cbv zeta.
        assert (gather 0 F1 (free_axes (ndim t') (map (shift_axis i j) a0 ++ map (shift_axis i j) a1)) = free_axes (ndim t) ((i :: a0) ++ j :: a1)) as EF.
        { rewrite <- map_app, N'. unfold F1. rewrite free_free by assumption. unfold free_axes. apply filter_ext. intros k. f_equal. apply mem_eq.
          split; apply Permutation_in; [symmetry|]; exact PM. }
        set (F2 := free_axes (ndim t') (map (shift_axis i j) a0 ++ map (shift_axis i j) a1)) in *.
        assert (forall k, In k F2 -> k < length F1) as RF2 by (intros k Hk; apply In_free_axes in Hk; rewrite <- N'; apply Hk).
        assert (gather 0 ls (free_axes (ndim t) ((i :: a0) ++ j :: a1)) = gather 0 ls' F2) as EL.
        { rewrite <- EF. unfold ls'. rewrite gather_gather by exact RF2. reflexivity. }
        rewrite EL. rewrite <- EF, gather_length. split; [exact Nu|]. split.
        { intros k Hk. destruct (Cu k Hk) as [Ck Fk]. rewrite Nu in Hk. rewrite (@nth_gather _ 0 0 F1 F2 k Hk). rewrite Ck, Fk. apply CF. rewrite N'. apply RF2, nth_In, Hk. }
        split; [intros _; apply Ou; right; exact O'|]. split; [exact Fu|]. intros a Ha.
        assert (forall x, In x ls' -> In x ls) as Sub.
        { intros x Hx. unfold ls', gather in Hx. apply in_map_iff in Hx. destruct Hx as (k & <- & Hk). apply nth_In. rewrite Ll. apply RF, Hk. }
        assert (gather 0 ls' (map (shift_axis i j) a0) = gather 0 ls a0) as EA.
        { unfold gather. rewrite map_map. apply map_ext_in. intros p Hp. destruct (SH p (in_or_app _ _ _ (or_introl Hp))) as [Sp Np]. rewrite N' in Sp. rewrite NL by exact Sp. rewrite Np. reflexivity. }
        assert (~ In (nth i ls 0) ls') as NI.
        { unfold ls', gather. intros H. apply in_map_iff in H. destruct H as (k & Ek & Hk). pose proof Hk as Hk'. apply In_free_axes in Hk'. destruct Hk' as [K1 K2].
          apply K2. destruct (Uq k K1 Ek) as [->| ->]; [left | right; left]; reflexivity. }
        rewrite Vu.
        2:{ intros x Hx Nx. apply Ha; [apply Sub, Hx|]. rewrite EA in Nx. intros [E|E]; [apply NI; rewrite E; exact Hx | apply Nx, E]. }
        rewrite EA. cbn [gather map]. fold (gather 0 ls a0).
        assert (ext (fvl (dense_of t, ls))) as EX by (eapply dep_ext, fval_dep).
        assert (NoDup (gather 0 ls (i :: a0))) as NDL.
        { apply NoDup_map_in.
          - intros x y Hx Hy E. assert (exists z, In (y, z) (combine (i :: a0) (j :: a1))) as (z & Hz).
            { destruct (In_nth _ _ 0 Hy) as (k & Hk & <-). exists (nth k (j :: a1) 0). rewrite <- (combine_nth (i :: a0) (j :: a1) k 0 0) by (symmetry; exact Hl).
              apply nth_In. rewrite combine_length, Hl, Nat.min_id. exact Hk. }
            destruct (HP _ _ Hz) as (_ & _ & Uz). destruct (Uz x (RG x (in_or_app _ _ _ (or_introl Hx))) E) as [-> | ->]; [reflexivity|].
            exfalso. apply (proj2 (proj2 (proj1 (NoDup_app_iff _ _) ND)) z Hx). apply (in_combine_r _ _ _ _ Hz).
          - exact (proj1 (proj1 (NoDup_app_iff _ _) ND)). }
        cbn [gather map] in NDL. fold (gather 0 ls a0) in NDL.
        rewrite (@esum_perm nat Nat.eq_dec K dim (nth i ls 0 :: gather 0 ls a0) (gather 0 ls a0 ++ [nth i ls 0])); [| exact EX | exact NDL | apply Permutation_cons_append].
        rewrite esum_app. apply esum_ext_range. intros b B1 B2.
        assert (forall x, In x ls' -> b x < dim x) as HB.
        { intros x Hx. destruct (in_dec Nat.eq_dec x (gather 0 ls a0)) as [I|I]; [apply B2, I | rewrite B1 by exact I; apply Ha; [apply Sub, Hx|]].
          intros [E|E]; [apply NI; rewrite E; exact Hx | apply I, E]. }
        rewrite <- (@fval_trace2 nat Nat.eq_dec K dim (dense_of t) ls i j 0 (nth i ls 0)); [| exact Ft | lia | lia | exact Nij | reflexivity | exact Elab |].
        * rewrite EFL. apply fval_teq; [exact T'|]. rewrite (proj1 T'). unfold fits in Ft'. cbn [fst snd] in Ft'. rewrite Ft'.
          apply valid_map_asg. exact HB.
        * rewrite EFL. exact NI.
  Qed.
End Loop.
