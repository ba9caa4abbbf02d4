(** * WaveExp: expectation values *)
From Coq Require Import Permutation List Lia.
From Verif Require Import Prelude Algebra Tensor TensorFacts Einsum EinsumFacts NetworkFacts Graph GraphBase GraphConnect GraphContract GraphOps GraphValue GraphLaws GraphJoin GraphTrace GraphQuery GraphQueryFacts GraphBetween GraphOuter GraphCopy GraphCopyFacts GraphDensity GraphTotal GraphTotal2 GraphSched PathFacts Quantum QuantumSpec QuantumFacts QuantumJoin QuantumMake Stitch SatFacts Wave WaveSpec WaveFacts WaveInv WaveMain.
From Verif Require GraphLoose FftStitch.
Import ListNotations.
Set Implicit Arguments.
Unset Strict Implicit.

Section WE.
  Context {R : cjr}.
  Notation st := (@st R).
  Notation M := (@M R).
  Implicit Types (s : st) (e f g : eid) (n m : nid).
  Variable iter : list nat -> list nat.
  Hypothesis iter_perm : forall l, Permutation (iter l) l.
  Notation "x *! y" := (rmul x y) (at level 40, left associativity).
  Add Ring Rwe : (rsr R).

  Lemma close_sites_ok c b es : forall i s s', wf s -> (forall k, k < length es -> slot s (c, i + k) = Some (b + (i + k))) -> NoDup es ->
    (forall x, In x es -> x < b /\ exists p, slot s p = Some x) ->
    connects es (map (fun k => b + k) (seq i (length es))) s = (s', Some tt) -> close_sites c i es s = (s', Some tt).
  Proof.
    induction es as [|e es IH]; intros i s s' W Hs ND Hl H; cbn [length seq map connects close_sites] in *; [exact H|].
    assert (slot s (c, i) = Some (b + i)) as S0 by (specialize (Hs 0 ltac:(lia)); rewrite Nat.add_0_r in Hs; exact Hs).
    unfold bind at 1. rewrite (FftStitch.edge_of_slot S0). unfold bind in H |- *. apply NoDup_cons_iff in ND. destruct ND as [He ND].
    destruct (connect e (b + i) s) as [s1 [g|]] eqn:E; [|discriminate].
    destruct (Hl e (or_introl eq_refl)) as [Le Se].
    destruct (connect_inv W Se (ex_intro _ _ S0) E) as (p & q & C).
    assert (forall z x, slot s z = Some x -> x <> e -> x <> b + i -> slot s1 z = Some x) as Keep.
    { intros z x Hz N1 N2. rewrite (cp_slot C). pose proof (cp_p1 C). pose proof (cp_p2 C).
      destruct (slot_eqb_spec z p) as [->|]; [congruence|]. destruct (slot_eqb_spec z q) as [->|]; [congruence|]. exact Hz. }
    apply IH; [apply (connect_wf W C)| |exact ND| |exact H].
    - intros k Hk. specialize (Hs (S k) ltac:(lia)). replace (S i + k) with (i + S k) by lia. apply Keep; [exact Hs|lia|lia].
    - intros x Hx. destruct (Hl x (or_intror Hx)) as [Lx (z & Hz)]. split; [exact Lx|]. exists z. apply Keep; [exact Hz|intros ->; contradiction|lia].
  Qed.

  Theorem expval_ok s psi op n1 pbc : wf s -> takes (window (rank psi) n1 (rank op / 2) pbc) op psi ->
    shape (act (window (rank psi) n1 (rank op / 2) pbc) op psi) = shape psi ->
    exists s' T, expval iter psi op n1 pbc s = (s', Some T) /\ wf s' /\ shape T = [] /\
      elt T [] = lsum (idxs (shape psi)) (fun ys => cj (elt psi ys) *! elt (act (window (rank psi) n1 (rank op / 2) pbc) op psi) ys).
  Proof.
    intros W Ht Hsq. destruct (winv_start psi W) as (s1 & n & state & E1 & E2 & I).
    destruct (winv_step I ltac:(discriminate) Ht) as (s2 & m & state' & E3 & I2). cbn [app] in I2.
    unfold expval, bind. rewrite E1, E2, E3. cbn [fst snd].
    set (P := act (window (rank psi) n1 (rank op / 2) pbc) op psi) in *.
    destruct (winv_pair I2) as (d1 & d2 & D1 & D2 & Hne & Hsh & NDr & Hr).
    destruct (between_ok iter_perm (wi_wf I2) D2 D1 (wi_name I2 (or_intror (or_introl eq_refl))) (wi_name I2 (or_introl eq_refl)) (ao := false) (order := []) (names := None)) as (s3 & N & EB).
    { intros K. contradiction. }
    { left; reflexivity. }
    { exact Logic.I. }
    rewrite EB. pose proof (wi_wf I2) as W2.
    assert (m <> n) as Hne' by (intros Q; apply Hne; congruence).
    destruct (between_step iter_perm W2 Hne' EB) as (C & x1 & x2 & nd & X1 & X2 & EN & Pm & _ & _ & _).
    rewrite D2 in X1. injection X1 as <-. rewrite D1 in X2. injection X2 as <-.
    assert (Permutation (n_edges nd) (rest_of s2 m n)) as Pm'.
    { replace (rest_of s2 m n) with (kept_of (shared_list s2 m n) (n_edges d2) ++ kept_of (shared_list s2 m n) (n_edges d1)); [exact Pm|].
      unfold rest_of. rewrite nodup_fixed_point by (constructor; [intros [K|[]]; congruence|constructor; [intros []|constructor]]). cbn [flat_map]. rewrite D1, D2, app_nil_r. reflexivity. }
    assert (forall e, In e (n_edges nd) <-> In e state') as Hed.
    { intros e. rewrite <- Hr. split; apply Permutation_in; [exact Pm'|apply Permutation_sym; exact Pm']. }
    assert (stands s2 [n; m] s3 [N]) as H.
    { apply (stands_step (winv_stands I2) C); [rewrite app_nil_r; apply perm_swap|]. intros x Hx. apply (between_nameable W2 Hx EB). }
    pose proof (sd_wf H) as W3.
    assert (live s3 [N]) as LV by (destruct (sd_net H) as [Q1 Q2]; split; [exact Q1|exact Q2]).
    assert (forall x, In x state' -> loose s3 [N] x) as Hlo.
    { intros x Hx. pose proof (proj2 (Hed x) Hx) as Hx'. destruct (proj2 (on_In x EN) Hx') as (k & Hk). exists (N, k). split; [left; reflexivity|]. split; [exact Hk|].
      destruct (proj1 (wi_loose I2 x) Hx) as (p & _ & Sp & Ep).
      assert (GraphLoose.loose s3 x) as (_ & ed & Ed & E2n).
      { apply (GraphLoose.stay_between EB). split; [apply (slot_lt W2 Sp)|]. eexists. split; [exact Ep|reflexivity]. }
      destruct (wf_slot W3 Hk) as (ed' & Ed' & Dd & _). rewrite Ed in Ed'. injection Ed' as <-.
      pose proof (dangling_slot W3 Hk Ed E2n) as Q. destruct ed as [y1 y2 y3 y4]. cbn in *. rewrite Ed. congruence. }
    assert (forall x, In x state' -> edim s3 x = edim s2 x) as Hdi.
    { intros x Hx. apply (sd_dim H). cbn [net_of map]. rewrite (fac_node EN), net_labels_cons. cbn [snd net_labels flat_map]. rewrite app_nil_r. apply Hed, Hx. }
    assert (map (edim s3) state' = shape psi) as Hdim by (rewrite (map_ext_in _ _ _ Hdi), (wi_dims I2); exact Hsq).
    set (cpsi := Tensor (shape psi) (fun ys => cj (elt psi ys))).
    destruct (leaf_new cpsi W3) as (s4 & c & E4 & L & Hne4). rewrite E4.
    change (rank cpsi) with (rank psi) in *. set (b := s_ne s3) in *. set (fs := seq b (rank psi)) in *.
    assert (length state' = rank psi) as Ls by (unfold rank; rewrite <- Hdim, map_length; reflexivity).
    assert (forall k, k < rank psi -> nth k fs 0 = b + k) as Hnth by (intros k Hk; apply seq_nth; exact Hk).
    destruct (@attach_ok R s3 s4 [N] cpsi c fs state' fs W3 LV L (wi_nodup I2) Hlo (lf_nodup L) (fun x Hx => Hx)) as (s5 & E5 & J & A).
    { assert (map (edim s4) fs = map (edim s3) state') as Q.
      { rewrite Hdim. apply (nth_ext _ _ 0 0); [rewrite map_length; apply (lf_len L)|]. rewrite map_length. intros k Hk. rewrite nth_map_0 by exact Hk. rewrite (lf_len L) in Hk. apply (leaf_dim L Hk). }
      clear - Q. revert Q. generalize state'. generalize fs. intros l. induction l as [|x l IH]; intros [|y l'] Q; try discriminate; constructor; cbn in Q; injection Q as Q1 Q2; auto. }
    assert (close_sites c 0 state' s4 = (s5, Some tt)) as EC.
    { apply (@close_sites_ok c b state' 0 s4 s5 (lf_wf L)).
      - intros k Hk. rewrite Ls in Hk. cbn [plus]. rewrite (lf_slot L) by exact Hk. f_equal. apply Hnth, Hk.
      - apply (wi_nodup I2).
      - intros x Hx. destruct (Hlo x Hx) as (p & _ & Q & _). split; [apply (slot_lt W3 Q)|]. exists p. apply (leaf_slot_old L Q).
      - replace (map (fun k => b + k) (seq 0 (length state'))) with fs; [exact E5|]. rewrite Ls. unfold fs.
        assert (forall d x, map (fun k => b + k) (seq x d) = seq (b + x) d) as Q by (induction d as [|d IH]; intros x; cbn; [reflexivity|]; rewrite IH; do 2 f_equal; lia).
        rewrite Q, Nat.add_0_r. reflexivity. }
    rewrite EC. pose proof (at_wf A) as W5.
    assert (N <> c) as HNc by (intros ->; apply (lf_fresh L), (proj2 LV); left; reflexivity).
    assert (forall x, In x (state' ++ fs) -> dangles s4 x) as Dg.
    { intros x Hx. apply in_app_or in Hx. destruct Hx as [Hx|Hx]; [apply (loose_dangles (beside_old L LV (Hlo x Hx)))|apply (loose_dangles (beside_new [N] L Hx))]. }
    assert (forall x h, In x state' -> on s4 h x -> h = N) as OnE.
    { intros x h Hx Ho. destruct (loose_on (Hlo x Hx)) as (h' & [<-|[]] & Ho'). apply (dangles_on (lf_wf L) (Dg x (in_or_app _ _ _ (or_introl Hx))) Ho (leaf_on_old L Ho')). }
    assert (forall x h, In x fs -> on s4 h x -> h = c) as OnF.
    { intros x h Hx Ho. apply (dangles_on (lf_wf L) (Dg x (in_or_app _ _ _ (or_intror Hx))) Ho (proj2 (leaf_on L x) Hx)). }
    assert (NoDup (n_edges nd)) as NDn by (apply (Permutation_NoDup (Permutation_sym Pm')); exact NDr).
    assert (forall h e, In h ([N] ++ [c]) -> ~ between s5 h h e) as Self.
    { intros h e Hh. apply (joined_self (lf_wf L) J Dg).
      - intros e0 f0 Hc x Ha Hb. apply HNc. rewrite <- (OnE e0 x (in_combine_l _ _ _ _ Hc) Ha). apply (OnF f0 x (in_combine_r _ _ _ _ Hc) Hb).
      - intros y. cbn in Hh. destruct Hh as [<-|[<-|[]]].
        + apply (leaf_self L); [|left; apply (proj2 LV); left; reflexivity]. intros HN. apply plain_spec; [exact HN|]. unfold plain, edges_at0. rewrite EN. exact NDn.
        + apply (leaf_self L); [intros K; destruct (lf_fresh L K)|right; reflexivity]. }
    assert (forall h e, In h ([N] ++ [c]) -> forall h', on s5 h e -> on s5 h' e -> In h' ([N] ++ [c])) as Closed.
    { intros h e Hh h' Ha Hb. revert Hh Ha Hb. apply (@joined_closed R s4 s5 state' fs (fun x => In x ([N] ++ [c])) (lf_wf L) J).
      - intros x Hx. split; [apply Dg, Hx|]. apply in_app_or in Hx. destruct Hx as [Hx|Hx].
        + destruct (loose_on (Hlo x Hx)) as (h0 & [<-|[]] & Ho'). exists N. split; [left; reflexivity|apply (leaf_on_old L Ho')].
        + exists c. split; [right; left; reflexivity|apply (leaf_on L), Hx].
      - apply (leaf_closed L (proj2 LV)). intros x x' e0 [<-|[]] Ha Hb. left. apply (on_In e0 EN) in Ha. apply Hed in Ha. destruct (loose_on (Hlo e0 Ha)) as (h0 & [<-|[]] & Ho').
        apply (dangles_on W3 (loose_dangles (Hlo e0 Ha)) Ho' Hb). }
    assert (forall e, ~ loose s5 ([N] ++ [c]) e) as Noloose.
    { intros e K. destruct (joined_loose_back (lf_wf L) J Dg K) as [Q1 Q2]. destruct (leaf_loose_back L (proj2 LV) Q1) as [Q|Q].
      - destruct (loose_on Q) as (h & [<-|[]] & Ho). apply (on_In e EN), Hed in Ho. apply Q2, in_or_app. left. exact Ho.
      - apply Q2, in_or_app. right. exact Q. }
    assert (forall e, ~ boundary s5 [c; N] e) as Nob.
    { intros e (h & Hh & K). assert (In h ([N] ++ [c])) as Hh' by (cbn in Hh |- *; tauto). destruct K as [Ho|(h' & Hh2 & (p & q & _ & Hp & Hq & Sp & Sq))].
      - destruct Ho as (k & Hk & Hu). apply (Noloose e). exists (h, k). split; [exact Hh'|]. split; [exact Hk|].
        assert (on s5 h e) as Ho by (exists k; exact Hk). destruct (on_edge W5 Ho) as (ed & Ed & Dd).
        destruct (kinds W5 Ho Ed) as [(E2' & _)|(m' & a2 & _ & _ & _ & _ & K & _)]; [|exfalso; apply (K h); exists k; auto].
        pose proof (dangling_slot W5 Hk Ed E2') as Q. destruct ed as [y1 y2 y3 y4]. cbn in *. rewrite Ed. congruence.
      - assert (In h' ([N] ++ [c])) as Q by (apply (@Closed h e Hh'); [exists (snd p); destruct p|exists (snd q); destruct q]; cbn [fst snd] in *; congruence). apply Hh2. cbn in Q |- *. tauto. }
    destruct (at_live A) as [ND5 Hex5].
    destruct (is_node_Some (Hex5 N (or_introl eq_refl))) as (dN & EN5). destruct (is_node_Some (Hex5 c (or_intror (or_introl eq_refl)))) as (dc & Ec5).
    assert (nameable s5 N) as NmN.
    { intros y Ey. pose proof (jn_same J N) as Q. rewrite Ey in Q. destruct (s_nodes s4 N) as [y1|] eqn:Ey1; [|contradiction]. destruct Q as (_ & Q1 & Q2). rewrite Q1, Q2.
      rewrite (k_nodes (lf_kept L) (proj2 LV N (or_introl eq_refl))) in Ey1. apply (sd_name H (or_introl eq_refl) Ey1). }
    assert (nameable s5 c) as Nmc.
    { intros y Ey. pose proof (jn_same J c) as Q. rewrite Ey in Q. rewrite (lf_node L) in Q. destruct Q as (_ & Q1 & Q2). rewrite Q1, Q2. cbn [n_names n_edges]. rewrite seq_length, (lf_len L). apply le_n. }
    destruct (between_ok iter_perm W5 Ec5 EN5 Nmc NmN (ao := false) (order := []) (names := None)) as (s6 & F & EB2).
    { intros K. exfalso.
      destruct Ht as (_ & Hlt & Hw & _). assert (0 < rank psi) as Hpos by (destruct (window (rank psi) n1 (rank op / 2) pbc) as [|t l]; [cbn in Hw; lia|]; specialize (Hlt t (or_introl eq_refl)); lia).
      pose proof (jn_pair J) as Q. destruct state' as [|e0 es']; [cbn in Ls; lia|]. inversion Q as [|? f0 ? fs' (g & p & q & G1 & G2 & G3 & G4 & G5 & G6) _ Q1 Q2].
      assert (In f0 fs) as Hf0 by (rewrite <- Q2; left; reflexivity).
      assert (fst p = N) as Hp1 by (apply (OnE e0); [left; reflexivity|exists (snd p); destruct p; exact G2]).
      assert (fst q = c) as Hq1 by (apply (OnF f0); [exact Hf0|exists (snd q); destruct q; exact G3]).
      assert (on s5 c g) as Oc by (exists (snd q); destruct q; cbn [fst snd] in *; congruence).
      assert (In g (shared_list s5 c N)) as Hs; [|rewrite K in Hs; destruct Hs].
      apply (shared_spec N g Ec5). split; [apply (on_In g Ec5); exact Oc|]. eexists. split; [exact G6|]. apply (@joins_between _ s5 c g _ c N W5 Oc G6). exists q, p. split; [intros Q3; apply HNc; congruence|]. auto. }
    { left; reflexivity. }
    { exact Logic.I. }
    rewrite EB2. assert (c <> N) as HcN by congruence.
    destruct (between_step iter_perm W5 HcN EB2) as (C2 & _).
    assert (NoDup [c; N]) as NDc by (constructor; [intros [K|[]]; congruence|constructor; [intros []|constructor]]).
    assert (stands s5 [c; N] s6 [F]) as H6.
    { assert (stands s5 [c; N] s5 [c; N]) as H5; [|apply (stands_step H5 C2); [rewrite app_nil_r; apply Permutation_refl|intros x Hx; apply (between_nameable W5 Hx EB2)]].
      apply stands_refl; [exact W5| |].
      - split; [exact NDc|]. intros x Hx. apply Hex5. cbn in Hx |- *. tauto.
      - intros x [<-|[<-|[]]]; assumption. }
    assert (nodup Nat.eq_dec [c; N] = [c; N]) as Hnd by (apply nodup_fixed_point; exact NDc). rewrite <- Hnd in H6.
    destruct (@finish_ok R s5 [c; N] s6 F None true [] W5 H6) as (s7 & E7 & Ct).
    { assert (forall h, In h ([N] ++ [c]) -> plain s5 h) as Pl by (intros h Hh; apply plain_spec; [apply Hex5, Hh|intros e; apply (Self h e Hh)]).
      apply (pair_plain iter_perm W5 HcN (Pl c (or_intror (or_introl eq_refl))) (Pl N (or_introl eq_refl)) EB2). }
    { discriminate. }
    unfold bind, ret in E7. injection E7 as <-.
    destruct (co_node Ct) as (ndF & EF & _ & Hb & _ & HshF & Hv).
    assert (n_edges ndF = []) as HeF.
    { destruct (n_edges ndF) as [|e l]; [reflexivity|]. exfalso. apply (Nob e), Hb. left; reflexivity. }
    unfold get_node. rewrite EF. exists s6, (n_t ndF). split; [reflexivity|]. split; [apply (co_wf Ct)|]. rewrite HeF in *. split; [exact HshF|].
    specialize (Hv (fun _ => 0)). cbn [map] in Hv. rewrite Hv by (intros e K; destruct (Nob e K)). rewrite Hnd.
    rewrite (@netval_perm R s5 [c; N] ([N] ++ [c]) (fun _ => 0) (perm_swap N c [])). rewrite (at_val A), Hdim. apply lsum_ext. intros vs Hvs. apply In_idxs in Hvs.
    assert (length vs = rank psi) as Lv by (rewrite (valid_length Hvs); reflexivity).
    set (a := binds Nat.eq_dec (fun _ : nat => 0) state' vs).
    assert (map a state' = vs) as Ha by (apply map_binds; [apply (wi_nodup I2)|lia]).
    assert (netval s2 [n; m] a = netval s3 [N] a) as <-.
    { apply (sd_val H). intros x Hx. apply (cnt_boundary x W2 (proj1 (wi_live I2))) in Hx. apply (winv_boundary x I2) in Hx.
      rewrite <- Hdi by exact Hx. rewrite <- Hdim, <- Ha in Hvs. clear - Hvs Hx. revert Hvs. generalize a. intros a0 Hvs. induction state' as [|y l IH]; [destruct Hx|]. inversion Hvs; subst. destruct Hx as [<-|Hx]; auto. }
    rewrite (wi_val I2), Ha. replace (map (binds Nat.eq_dec (fun _ : nat => 0) fs vs) fs) with vs by (symmetry; apply map_binds; [apply (lf_nodup L)|rewrite Lv; symmetry; apply (lf_len L)]).
    unfold cpsi. cbn [elt]. ring.
  Qed.
End WE.
