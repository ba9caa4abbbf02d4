(** * FftFacts: what the stitched matrices do to the vector on the loose ends *)
From Coq Require Import Permutation List Lia.
From Verif Require Import Prelude Algebra Tensor TensorFacts Einsum EinsumFacts NetworkFacts Graph GraphBase GraphConnect GraphContract GraphOps GraphValue GraphLaws GraphJoin GraphQuery GraphQueryFacts GraphCopy GraphCopyFacts GraphDensity Quantum QuantumSpec QuantumFacts QuantumJoin QuantumMake Stitch Fft FftStitch FftSpec.
Import ListNotations.
Set Implicit Arguments.
Unset Strict Implicit.

Section FF.
  Context {R : cjr}.
  Notation st := (@st R).
  Notation M := (@M R).
  Implicit Types (s : st) (e f g : eid) (n m : nid).
  Notation "x +! y" := (radd x y) (at level 50, left associativity).
  Notation "x *! y" := (rmul x y) (at level 40, left associativity).
  Add Ring Rff : (rsr R).

  (** ** puts *)
  Lemma puts_other ts : forall state xs j d, (forall t, In t ts -> t < length state) -> ~ In j ts -> nth j (puts state ts xs) d = nth j state d.
  Proof.
    induction ts as [|t ts IH]; intros state [|x xs] j d Hr Hj; cbn [puts]; try reflexivity.
    rewrite IH.
    - rewrite nth_replace by (apply Hr; left; reflexivity). destruct (Nat.eqb_spec j t) as [->|]; [exfalso; apply Hj; left; reflexivity|reflexivity].
    - intros y Hy. rewrite replace_nth_length. apply Hr. right. exact Hy.
    - intros K. apply Hj. right. exact K.
  Qed.
  Lemma puts_at ts : forall state xs k d, NoDup ts -> (forall t, In t ts -> t < length state) -> length xs = length ts -> k < length ts ->
    nth (nth k ts 0) (puts state ts xs) d = nth k xs d.
  Proof.
    induction ts as [|t ts IH]; intros state [|x xs] k d ND Hr Hl Hk; cbn [length puts] in *; try lia.
    apply NoDup_cons_iff in ND. destruct ND as [Ht ND].
    assert (forall y, In y ts -> y < length (replace_nth t x state)) as Hr' by (intros y Hy; rewrite replace_nth_length; apply Hr; right; exact Hy).
    destruct k as [|k]; cbn [nth].
    - rewrite puts_other by assumption. rewrite nth_replace by (apply Hr; left; reflexivity). rewrite Nat.eqb_refl. reflexivity.
    - apply IH; [exact ND|exact Hr'|lia|lia].
  Qed.
  Lemma puts_map (b : nat -> nat) ts : forall state xs, map b (puts state ts xs) = puts (map b state) ts (map b xs).
  Proof.
    assert (forall t x l, map b (replace_nth t x l) = replace_nth t (b x) (map b l)) as Q.
    { intros t x l. revert t. induction l as [|y l IH]; intros [|t]; cbn; auto. rewrite IH. reflexivity. }
    induction ts as [|t ts IH]; intros state [|x xs]; cbn; auto. rewrite IH, Q. reflexivity.
  Qed.
  Lemma puts_cases (ts : list nat) j : (exists k, k < length ts /\ j = nth k ts 0) \/ ~ In j ts.
  Proof. destruct (in_dec Nat.eq_dec j ts) as [H|H]; [left|right; exact H]. destruct (In_nth _ _ 0 H) as (k & H1 & H2). eauto. Qed.

  Definition bitl (n : nat) (ys : list nat) : Prop := length ys = n /\ forall j, j < n -> nth j ys 0 < 2.

  Section Inv.
    Variables (s0 : st) (ns0 : list nid) (inputs : list eid).
    Let n := length inputs.

    (** the vector on [state] is the kernel [K] applied to the vector on [inputs] *)
    Record inv s (ns : list nid) (state : list eid) (K : list nat -> list nat -> R) : Prop := {
      iv_wf : wf s;
      iv_live : live s ns;
      iv_ne : s_ne s0 <= s_ne s;
      iv_nodes : forall m, is_node s0 m -> is_node s m;
      iv_len : length state = n;
      iv_qubits : qubits s ns state;
      iv_src : forall x, In x state -> In x inputs \/ s_ne s0 <= x;
      iv_rest : forall x, loose s0 ns0 x -> ~ In x inputs -> loose s ns x /\ edim s x = edim s0 x;
      iv_val : forall a, (forall x, In x state -> a x < 2) -> netval s ns a =
        lsum (idxs (repeat 2 n)) (fun xs => K xs (map a state) *! netval s0 ns0 (binds Nat.eq_dec a inputs xs))
    }.

    Lemma inv_ext s ns state K K' : inv s ns state K -> (forall xs ys, bitl n xs -> bitl n ys -> K xs ys = K' xs ys) -> inv s ns state K'.
    Proof.
      intros I H. destruct I as [I1 I2 I3 I4 I5 I6 I7 I8 I9]. split; auto.
      intros a Ha. rewrite (I9 a Ha). apply lsum_ext. intros xs Hxs. f_equal. apply H.
      - apply In_idxs in Hxs. split; [rewrite (valid_length Hxs), repeat_length; reflexivity|]. intros j Hj.
        assert (nth j (repeat 2 n) 0 = 2) as Q by (clear - Hj; revert j Hj; generalize n; intros k; induction k; intros [|j] Hj; cbn; try lia; apply IHk; lia).
        rewrite <- Q. clear - Hxs Hj. revert Hxs Hj. generalize (repeat_length 2 n). generalize (repeat 2 n). intros l <- Hxs. revert j. induction Hxs as [|x y l l' H H' IH]; intros j Hj; cbn in *; [lia|]. destruct j; [exact H|]. apply IH. lia.
      - split; [rewrite map_length; exact I5|]. intros j Hj. rewrite <- I5 in Hj. rewrite (nth_indep _ 0 (a 0)) by (rewrite map_length; exact Hj). rewrite map_nth. apply Ha, nth_In, Hj.
    Qed.

    Lemma inv_step s ns state K ts t : wf s0 -> live s0 ns0 -> NoDup inputs -> inv s ns state K -> NoDup ts -> (forall j, In j ts -> j < n) ->
      shape t = repeat 2 (length ts + length ts) ->
      exists s' m state', inline_stitch ts t state s = (s', Some state') /\ ~ is_node s m /\
        inv s' (ns ++ [m]) state' (fun xs ys => lsum (idxs (repeat 2 (length ts))) (fun vs => K xs (puts ys ts vs) *! elt t (vs ++ map (fun j => nth j ys 0) ts))).
    Proof.
      intros W0 LV0 NDi I ND Hr Hsh. destruct (iv_qubits I) as [NDs Hq].
      assert (forall j, In j ts -> j < length state) as Hr' by (intros j Hj; rewrite (iv_len I); apply Hr, Hj).
      assert (forall j, In j ts -> In (nth j state 0) state) as Hin by (intros j Hj; apply nth_In, Hr', Hj).
      assert (map (fun j => edim s (nth j state 0)) ts = repeat 2 (length ts)) as Hdim.
      { clear - Hq Hin. induction ts as [|j ts IH]; cbn; [reflexivity|]. f_equal; [apply Hq, Hin; left; reflexivity|]. apply IH. intros k Hk. apply Hin. right. exact Hk. }
      destruct (@stitch_ok R s ns state ts t (repeat 2 (length ts)) (iv_wf I) (iv_live I) ND Hr') as (s' & m & outs & state' & H & S).
      { intros j j' Hj Hj' Q. apply (proj1 (NoDup_nth state 0) NDs); auto. }
      { intros j Hj. apply Hq, Hin, Hj. }
      { apply repeat_length. }
      { rewrite Hdim, Hsh. apply repeat_app. }
      exists s', m, state'. split; [exact H|]. split; [apply (sd_fresh S)|].
      destruct (sd_outs S) as (NDo & Lo & Ho). pose proof (sd_state S) as Es.
      assert (length state' = n) as Hlen by (rewrite Es, puts_length; apply (iv_len I)).
      assert (forall j, j < n -> (exists k, k < length ts /\ j = nth k ts 0 /\ nth j state' 0 = nth k outs 0) \/ (~ In j ts /\ nth j state' 0 = nth j state 0)) as Cases.
      { intros j Hj. destruct (puts_cases ts j) as [(k & Hk & Q)|Q].
        - left. exists k. split; [exact Hk|]. split; [exact Q|]. rewrite Es, Q. apply puts_at; auto.
        - right. split; [exact Q|]. rewrite Es. apply puts_other; auto. }
      assert (forall x, In x state -> x < s_ne s) as Hold by (intros x Hx; destruct (Hq x Hx) as ((p & _ & Q & _) & _); apply (slot_lt (iv_wf I) Q)).
      assert (forall k, k < length ts -> s_ne s <= nth k outs 0) as Hnew by (intros k Hk; apply Ho, nth_In; rewrite Lo; exact Hk).
      assert (forall x, In x state' -> exists j, j < n /\ x = nth j state' 0) as Hidx by (intros x Hx; destruct (In_nth _ _ 0 Hx) as (j & H1 & H2); exists j; split; [rewrite <- Hlen; exact H1|congruence]).
      assert (forall j, j < n -> ~ In j ts -> ~ In (nth j state 0) (map (fun t0 => nth t0 state 0) ts)) as Hnin.
      { intros j Hj Hn K0. apply in_map_iff in K0. destruct K0 as (j' & Q & Hj'). apply (proj1 (NoDup_nth state 0) NDs) in Q; auto; [|rewrite (iv_len I); exact Hj]. subst. contradiction. }
      assert (forall k, 2 = nth k (repeat 2 (length ts + length ts)) 2) as Rep by (intros k; generalize (length ts + length ts); intros q; revert k; induction q; intros [|k]; cbn; auto).
      assert (NoDup state') as ND'.
      { apply (NoDup_nth state' 0). rewrite Hlen. intros i j Hi Hj Q. destruct (Cases i Hi) as [(k & Hk & E1 & E2)|[E1 E2]], (Cases j Hj) as [(k' & Hk' & E1' & E2')|[E1' E2']]; rewrite E2, E2' in Q.
        - apply (proj1 (NoDup_nth outs 0) NDo) in Q; try (rewrite Lo; assumption). congruence.
        - pose proof (Hnew k Hk). pose proof (Hold (nth j state 0) ltac:(apply nth_In; rewrite (iv_len I); exact Hj)). lia.
        - pose proof (Hnew k' Hk'). pose proof (Hold (nth i state 0) ltac:(apply nth_In; rewrite (iv_len I); exact Hi)). lia.
        - apply (proj1 (NoDup_nth state 0) NDs); auto; rewrite (iv_len I); assumption. }
      split.
      - apply (sd_wf S).
      - apply (sd_live S).
      - pose proof (iv_ne I). pose proof (sd_ne S). lia.
      - intros p Hp. apply (sd_nodes S), (iv_nodes I), Hp.
      - exact Hlen.
      - split; [exact ND'|]. intros x Hx. destruct (Hidx x Hx) as (j & Hj & ->). destruct (Cases j Hj) as [(k & Hk & E1 & E2)|[E1 E2]]; rewrite E2.
        + destruct (sd_new S Hk) as [Q1 Q2]. split; [exact Q1|]. rewrite Q2, Hsh. rewrite (nth_indep _ 0 2) by (rewrite repeat_length; lia). symmetry. apply Rep.
        + destruct (Hq (nth j state 0) ltac:(apply nth_In; rewrite (iv_len I); exact Hj)) as [Q1 Q2].
          destruct (sd_old S Q1 (Hnin j Hj E1)) as [Q3 Q4]. split; [exact Q3|congruence].
      - intros x Hx. destruct (Hidx x Hx) as (j & Hj & ->). destruct (Cases j Hj) as [(k & Hk & E1 & E2)|[E1 E2]]; rewrite E2.
        + right. pose proof (Hnew k Hk). pose proof (iv_ne I). lia.
        + apply (iv_src I), nth_In. rewrite (iv_len I). exact Hj.
      - intros x Hx Hn. destruct (iv_rest I Hx Hn) as [Q1 Q2].
        destruct (sd_old S Q1) as [Q3 Q4]; [|split; [exact Q3|congruence]].
        intros K0. apply in_map_iff in K0. destruct K0 as (j & <- & Hj). destruct (iv_src I (Hin j Hj)) as [Q|Q]; [contradiction|].
        destruct Hx as (p & _ & Hp & _). apply (slot_lt W0) in Hp. lia.
      - intros a Ha. rewrite (sd_val S), Hdim.
        set (es := map (fun t0 => nth t0 state 0) ts).
        assert (NoDup es) as NDe.
        { unfold es. clear - ND NDs Hr'. induction ts as [|x ts IH]; cbn; constructor; apply NoDup_cons_iff in ND.
          - intros K0. apply in_map_iff in K0. destruct K0 as (y & Q & Hy). apply (proj1 (NoDup_nth state 0) NDs) in Q; try (apply Hr'; cbn; auto). subst. tauto.
          - apply IH; [tauto|]. intros y Hy. apply Hr'. right. exact Hy. }
        transitivity (lsum (idxs (repeat 2 (length ts))) (fun vs => lsum (idxs (repeat 2 n)) (fun xs => (K xs (puts (map a state') ts vs) *! elt t (vs ++ map (fun j => nth j (map a state') 0) ts)) *! netval s0 ns0 (binds Nat.eq_dec a inputs xs)))).
        + apply lsum_ext. intros vs Hvs. pose proof Hvs as Hvs'. apply In_idxs in Hvs. pose proof (valid_length Hvs) as Lv. rewrite repeat_length in Lv.
          assert (length vs = length es) as Lv' by (unfold es; rewrite map_length; exact Lv).
          set (b := binds Nat.eq_dec a es vs).
          assert (forall k, k < length ts -> b (nth (nth k ts 0) state 0) = nth k vs 0) as Bat.
          { intros k Hk. assert (nth_error es k = Some (nth (nth k ts 0) state 0)) as Q by (unfold es; apply (map_nth_error (fun t0 => nth t0 state 0)); apply nth_error_nth'; exact Hk).
            pose proof (binds_nth a NDe Lv' Q) as B. apply (nth_error_nth _ _ 0) in B. unfold b. congruence. }
          assert (forall j, j < n -> ~ In j ts -> b (nth j state 0) = a (nth j state 0)) as Bother by (intros j Hj Hn; apply binds_other, Hnin; assumption).
          assert (map b state = puts (map a state') ts vs) as Emap.
          { apply (nth_ext _ _ 0 0); [rewrite puts_length, !map_length, (iv_len I), Hlen; reflexivity|]. rewrite map_length, (iv_len I). intros j Hj.
            assert (nth j (map b state) 0 = b (nth j state 0)) as -> by (rewrite (nth_indep _ 0 (b 0)) by (rewrite map_length, (iv_len I); exact Hj); apply map_nth).
            destruct (Cases j Hj) as [(k & Hk & E1 & E2)|[E1 E2]].
            - rewrite E1, Bat by exact Hk. symmetry. apply puts_at; auto. intros q Hq'. rewrite map_length, Hlen. apply Hr, Hq'.
            - rewrite Bother by assumption. rewrite puts_other; [|intros q Hq'; rewrite map_length, Hlen; apply Hr, Hq'|exact E1].
              rewrite (nth_indep (map a state') 0 (a 0)) by (rewrite map_length, Hlen; exact Hj). rewrite map_nth, E2. reflexivity. }
          rewrite (iv_val I).
          * rewrite <- lsum_mul_r. apply lsum_ext. intros xs Hxs. fold b. rewrite Emap.
            assert (map a outs = map (fun j => nth j (map a state') 0) ts) as ->.
            { apply (nth_ext _ _ 0 0); [rewrite !map_length; exact Lo|]. rewrite map_length, Lo. intros k Hk.
              rewrite (nth_indep _ 0 (a 0)) by (rewrite map_length, Lo; exact Hk). rewrite map_nth.
              rewrite (nth_indep (map (fun j => nth j (map a state') 0) ts) 0 (nth 0 (map a state') 0)) by (rewrite map_length; exact Hk). rewrite (map_nth (fun j => nth j (map a state') 0)).
              rewrite (nth_indep (map a state') 0 (a 0)) by (rewrite map_length, Hlen; apply Hr, nth_In, Hk). rewrite map_nth. f_equal. rewrite Es. symmetry. apply puts_at; auto. }
            assert (netval s0 ns0 (binds Nat.eq_dec b inputs xs) = netval s0 ns0 (binds Nat.eq_dec a inputs xs)) as ->; [|ring].
            apply netval_ext_asg. intros x Hx.
            assert (length xs = length inputs) as Lx by (apply In_idxs in Hxs; rewrite (valid_length Hxs), repeat_length; reflexivity).
            destruct (in_dec Nat.eq_dec x inputs) as [Hi|Hi].
            -- destruct (In_nth_error _ _ Hi) as (i & Hi'). pose proof (binds_nth a NDi Lx Hi') as B1. pose proof (binds_nth b NDi Lx Hi') as B2. congruence.
            -- transitivity (b x); [apply binds_other; exact Hi|]. transitivity (a x); [|symmetry; apply binds_other; exact Hi]. apply binds_other.
               intros K0. unfold es in K0. apply in_map_iff in K0. destruct K0 as (j & <- & Hj). destruct (iv_src I (Hin j Hj)) as [Q|Q]; [contradiction|].
               assert (In (nth j state 0) (net_labels (net_of s0 ns0))) as K2 by (apply (count_occ_In Nat.eq_dec); lia).
               apply In_net_labels in K2. destruct K2 as (q & _ & (i & Hs)). apply (slot_lt W0) in Hs. lia.
          * intros x Hx. fold b. destruct (In_nth _ _ 0 Hx) as (j & Hj & <-). rewrite (iv_len I) in Hj. destruct (Cases j Hj) as [(k & Hk & E1 & E2)|[E1 E2]].
            -- rewrite E1, Bat by exact Hk. clear - Hvs Hk Lv. revert Hvs Hk Lv. generalize (length ts). intros q Hvs. revert k. remember (repeat 2 q) as l. revert q Heql. induction Hvs as [|x y l l' H H' IH]; intros q E k Hk Hl; cbn in *; [lia|].
               destruct q; cbn in E; [discriminate|]. injection E as -> ->. destruct k; [exact H|]. apply (IH q eq_refl); lia.
            -- rewrite Bother by assumption. rewrite <- E2. apply Ha, nth_In. rewrite Hlen. exact Hj.
        + rewrite lsum_swap. apply lsum_ext. intros xs _. apply lsum_mul_r.
    Qed.
  End Inv.
End FF.
