(** * FftStitch: inline_stitch applies a matrix to some of the loose ends *)
From Coq Require Import Permutation List Lia.
From Verif Require Import Prelude Algebra Tensor TensorFacts Einsum EinsumFacts NetworkFacts Graph GraphBase GraphConnect GraphContract GraphOps GraphValue GraphLaws GraphJoin GraphQuery GraphQueryFacts GraphCopy GraphCopyFacts GraphDensity Quantum QuantumSpec QuantumFacts QuantumJoin QuantumMake Stitch Fft.
Import ListNotations.
Set Implicit Arguments.
Unset Strict Implicit.

Section FS.
  Context {R : cjr}.
  Notation st := (@st R).
  Notation M := (@M R).
  Implicit Types (s : st) (e f g : eid) (n m : nid).
  Add Ring Rfs : (rsr R).

  Fixpoint puts (state : list eid) (ts : list nat) (xs : list eid) : list eid :=
    match ts, xs with t :: ts', x :: xs' => puts (replace_nth t x state) ts' xs' | _, _ => state end.

  Lemma replace_nth_length A k (x : A) l : length (replace_nth k x l) = length l.
  Proof. revert k. induction l as [|y l IH]; intros [|k]; cbn; auto. Qed.
  Lemma nth_replace A k (x : A) l j d : k < length l -> nth j (replace_nth k x l) d = if j =? k then x else nth j l d.
  Proof.
    revert k j. induction l as [|y l IH]; intros k j Hk; [cbn in Hk; lia|]. destruct k as [|k], j as [|j]; cbn; try reflexivity.
    cbn in Hk. apply IH. lia.
  Qed.
  Lemma puts_length ts : forall state xs, length (puts state ts xs) = length state.
  Proof. induction ts as [|t ts IH]; intros state [|x xs]; cbn; auto. rewrite IH. apply replace_nth_length. Qed.

  Lemma edge_of_slot s op k e : slot s (op, k) = Some e -> edge_of op k s = (s, Some e).
  Proof.
    unfold slot, edge_of, bind, get_node. cbn [fst snd]. destruct (s_nodes s op) as [nd|]; [|discriminate]. intros ->. reflexivity.
  Qed.

  Lemma stitch_loop_ok op w (nes : nat -> eid) ts : forall k state s s', wf s -> NoDup ts -> (forall t, In t ts -> t < length state) ->
    k + length ts = w -> (forall i, k <= i -> i < w + w -> slot s (op, i) = Some (nes i)) -> (forall i j, nes i = nes j -> i = j) ->
    (forall t i, In t ts -> nth t state 0 <> nes i) -> (forall t, In t ts -> exists p, slot s p = Some (nth t state 0)) ->
    (forall t t', In t ts -> In t' ts -> nth t state 0 = nth t' state 0 -> t = t') ->
    connects (map (fun t => nth t state 0) ts) (map nes (seq k (length ts))) s = (s', Some tt) ->
    stitch_loop op w k ts state s = (s', Some (puts state ts (map nes (seq (k + w) (length ts))))).
  Proof.
    induction ts as [|t ts IH]; intros k state s s' W ND Hr Hk Hs Hinj Hap Hsl Hst H; cbn [length seq map connects stitch_loop puts] in *.
    { unfold ret in *. congruence. }
    apply NoDup_cons_iff in ND. destruct ND as [Ht ND].
    rewrite (nth_error_nth' state 0 (Hr t (or_introl eq_refl))).
    unfold bind at 1. rewrite (edge_of_slot (Hs k ltac:(lia) ltac:(lia))). unfold bind at 1. rewrite (edge_of_slot (Hs (k + w) ltac:(lia) ltac:(lia))).
    unfold bind in H |- *. destruct (connect (nth t state 0) (nes k) s) as [s1 [g|]] eqn:E; [|discriminate].
    destruct (connect_inv W (Hsl t (or_introl eq_refl)) (ex_intro _ _ (Hs k ltac:(lia) ltac:(lia))) E) as (p & q & C).
    assert (forall z x, slot s z = Some x -> x <> nth t state 0 -> x <> nes k -> slot s1 z = Some x) as Keep.
    { intros z x Hz N1 N2. rewrite (cp_slot C). pose proof (cp_p1 C). pose proof (cp_p2 C).
      destruct (slot_eqb_spec z p) as [->|]; [congruence|]. destruct (slot_eqb_spec z q) as [->|]; [congruence|]. exact Hz. }
    assert (forall j, In j ts -> nth j (replace_nth t (nes (k + w)) state) 0 = nth j state 0) as Hnth.
    { intros j Hj. rewrite nth_replace by (apply Hr; left; reflexivity). destruct (Nat.eqb_spec j t) as [->|]; [contradiction|reflexivity]. }
    apply (IH (S k) (replace_nth t (nes (k + w)) state) s1 s').
    - apply (connect_wf W C).
    - exact ND.
    - intros j Hj. rewrite replace_nth_length. apply Hr. right. exact Hj.
    - lia.
    - intros i H1 H2. apply Keep; [apply Hs; lia| |].
      + intros Q. apply (Hap t i (or_introl eq_refl)). congruence.
      + intros Q. apply Hinj in Q. lia.
    - exact Hinj.
    - intros j i Hj. rewrite (Hnth j Hj). apply Hap. right. exact Hj.
    - intros j Hj. rewrite (Hnth j Hj).
      destruct (Hsl j (or_intror Hj)) as (z & Hz).
      destruct (Nat.eq_dec (nth j state 0) (nth t state 0)) as [Q|Q].
      + exfalso. apply (Hst j t (or_intror Hj) (or_introl eq_refl)) in Q. congruence.
      + exists z. apply Keep; [exact Hz|exact Q|]. apply Hap. right. exact Hj.
    - intros j j' Hj Hj'. rewrite (Hnth j Hj), (Hnth j' Hj'). apply Hst; right; assumption.
    - rewrite (map_ext_in _ _ _ Hnth). exact H.
  Qed.

  (** the values of the loose ends [state] after [targets] got new ends *)
  Record stitched s s' (ns : list nid) (t : tensor R) n (state : list eid) (ts : list nat) (outs state' : list eid) : Prop := {
    sd_wf : wf s';
    sd_fresh : ~ is_node s n;
    sd_nodes : forall m, is_node s m -> is_node s' m;
    sd_ne : s_ne s <= s_ne s';
    sd_live : live s' (ns ++ [n]);
    sd_outs : NoDup outs /\ length outs = length ts /\ forall x, In x outs -> s_ne s <= x;
    sd_state : state' = puts state ts outs;
    sd_old : forall x, loose s ns x -> ~ In x (map (fun t => nth t state 0) ts) -> loose s' (ns ++ [n]) x /\ edim s' x = edim s x;
    sd_new : forall k, k < length ts -> loose s' (ns ++ [n]) (nth k outs 0) /\ edim s' (nth k outs 0) = nth (k + length ts) (shape t) 0;
    sd_val : forall a, netval s' (ns ++ [n]) a =
      lsum (idxs (map (fun t => edim s (nth t state 0)) ts)) (fun vs =>
        rmul (netval s ns (binds Nat.eq_dec a (map (fun t => nth t state 0) ts) vs)) (elt t (vs ++ map a outs)))
  }.

  Lemma pick_seq_nth (b c d k : nat) : k < d -> nth k (seq b d) c = b + k.
  Proof. intros. apply seq_nth. assumption. Qed.

  Lemma stitch_ok s ns state ts t outd : wf s -> live s ns -> NoDup ts -> (forall t, In t ts -> t < length state) ->
    (forall t t', In t ts -> In t' ts -> nth t state 0 = nth t' state 0 -> t = t') ->
    (forall t, In t ts -> loose s ns (nth t state 0)) -> length outd = length ts ->
    shape t = map (fun t => edim s (nth t state 0)) ts ++ outd ->
    exists s' n outs state', inline_stitch ts t state s = (s', Some state') /\ stitched s s' ns t n state ts outs state'.
  Proof.
    intros W LV ND Hr Hst Hl Hlo Hsh. destruct (leaf_new t W) as (s1 & n & H1 & L & Hne).
    assert (rank t = length ts + length ts) as Hrk by (unfold rank; rewrite Hsh, app_length, map_length, Hlo; reflexivity).
    set (nes := seq (s_ne s) (rank t)) in *. set (w := length ts) in *.
    set (es := map (fun t => nth t state 0) ts). set (fs := map (fun i => s_ne s + i) (seq 0 w)). set (outs := map (fun i => s_ne s + i) (seq w w)).
    assert (nes = fs ++ outs) as Hnes.
    { unfold nes, fs, outs. rewrite Hrk, <- map_app. change (seq w w) with (seq (0 + w) w). rewrite <- seq_app. 
      assert (forall d b c, seq (c + b) d = map (fun i => c + i) (seq b d)) as Q.
      { clear. induction d as [|d IH]; intros b c; cbn; [reflexivity|]. f_equal. rewrite <- IH. f_equal. lia. }
      rewrite <- Q, Nat.add_0_r. reflexivity. }
    pose proof (lf_nodup L) as NDn. rewrite Hnes in NDn. apply NoDup_app_iff in NDn. destruct NDn as (NDf & NDo & Hfo).
    assert (NoDup es) as NDe.
    { unfold es. clear - ND Hst. induction ts as [|x ts IH]; cbn; constructor.
      - apply NoDup_cons_iff in ND. intros K. apply in_map_iff in K. destruct K as (y & Q & Hy). apply Hst in Q; [|right; exact Hy|left; reflexivity]. subst. tauto.
      - apply NoDup_cons_iff in ND. apply IH; [tauto|]. intros y z Hy Hz. apply Hst; right; assumption. }
    assert (forall k, k < rank t -> nth k nes 0 = s_ne s + k) as Hnth by (intros k Hk; apply seq_nth; exact Hk).
    destruct (@attach_ok R s s1 ns t n nes es fs W LV L NDe) as (s' & H2 & J & A).
    { intros x Hx. apply in_map_iff in Hx. destruct Hx as (y & <- & Hy). apply Hl, Hy. }
    { exact NDf. }
    { intros x Hx. rewrite Hnes. apply in_or_app. left. exact Hx. }
    { unfold es, fs. assert (forall k, k < w -> edim s1 (s_ne s + k) = nth k (map (fun t => edim s (nth t state 0)) ts) 0) as Q.
      { intros k Hk. rewrite <- Hnth by (unfold w in *; lia). rewrite (leaf_dim L) by (unfold w in *; lia). rewrite Hsh, app_nth1 by (rewrite map_length; exact Hk). reflexivity. }
      revert Q. clear. subst w. set (b := s_ne s). clearbody b.
      assert (forall j, (forall k, k < length ts -> edim s1 (b + (j + k)) = nth k (map (fun t0 => edim s (nth t0 state 0)) ts) 0) ->
        Forall2 (fun e f => edim s e = edim s1 f) (map (fun t0 => nth t0 state 0) ts) (map (fun i => b + i) (seq j (length ts)))) as G; [|intros Q; apply (G 0), Q].
      induction ts as [|x ts IH]; intros j Q; cbn; constructor.
      - specialize (Q 0 ltac:(cbn; lia)). cbn in Q. rewrite Nat.add_0_r in Q. symmetry. exact Q.
      - apply IH. intros k Hk. specialize (Q (S k) ltac:(cbn; lia)). cbn in Q. rewrite <- Q. f_equal. lia. }
    exists s', n, outs, (puts state ts outs). split; [|split].
    - unfold inline_stitch, bind. rewrite H1. fold w.
      rewrite (@stitch_loop_ok n w (fun i => s_ne s + i) ts 0 state s1 s' (lf_wf L) ND Hr eq_refl); auto.
      + intros i _ Hi. rewrite (lf_slot L) by lia. f_equal. apply Hnth. lia.
      + intros i j Q. lia.
      + intros x i Hx. pose proof (Hl x Hx) as (p & _ & Q & _). apply (slot_lt W) in Q. lia.
      + intros x Hx. destruct (beside_old L LV (Hl x Hx)) as (p & _ & Q & _). exists p. exact Q.
    - apply (at_wf A).
    - apply (at_fresh A).
    - apply (at_nodes A).
    - pose proof (jn_ne J). lia.
    - apply (at_live A).
    - split; [exact NDo|]. split; [unfold outs; rewrite map_length, seq_length; reflexivity|]. intros x Hx. apply in_map_iff in Hx. destruct Hx as (y & <- & _). lia.
    - reflexivity.
    - apply (at_old A).
    - intros k Hk. assert (nth k outs 0 = nth (w + k) nes 0) as Q.
      { rewrite Hnes. replace w with (length fs) at 1 by (unfold fs; rewrite map_length, seq_length; reflexivity). rewrite app_nth2_plus. reflexivity. }
      rewrite Q, (Nat.add_comm k). apply (at_new A); [lia|]. change (~ In (nth (w + k) nes 0) fs). rewrite <- Q. intros K. apply (Hfo _ K). apply nth_In. unfold outs. rewrite map_length, seq_length. exact Hk.
    - intros a. rewrite (at_val A). unfold es. rewrite map_map. apply lsum_ext. intros vs Hvs. f_equal. f_equal. rewrite Hnes, map_app. f_equal.
      + apply map_binds; [exact NDf|]. apply In_idxs, valid_length in Hvs. rewrite map_length in Hvs. unfold fs. rewrite map_length, seq_length. exact Hvs.
      + apply map_binds_other. intros x Hx K. apply (Hfo _ K Hx).
  Qed.
End FS.
