(** * SymTraceMain: trace is the trace of the dense tensor when the legs are paired as they are ordered *)
From Coq Require Import Permutation List Lia Arith Sorting.Sorted.
From Verif Require Import Prelude Algebra Tensor TensorFacts Einsum EinsumFacts Res Charge ChargeFacts BlockSparse BlockSpec BstSpec ListFacts BlockFacts BlockMaps BstFacts BstConv BstDot BstTensordot BstOps SymLinalg SymLinalgSpec SymTrace SymTraceLoop.
Import ListNotations.
Set Implicit Arguments.
Unset Strict Implicit.

(** the elements of [o] in the order in which the code pairs them: its k-th entry is the element of [o] whose rank is the
    position in [o] of the element of rank k *)
Definition ranked (o : list nat) : list nat := gather 0 (sort Nat.leb o) (argsort_nat o).
(** every pair the code contracts is a pair of legs at the same place of the two axes *)
Definition paired (o0 o1 : list nat) : Prop := incl (combine (ranked o0) (ranked o1)) (combine o0 o1).

Lemma unperm_map n p (h : nat -> nat) : is_perm n p -> unperm 0 p (map h p) = map h (seq 0 n).
Proof.
  intros H. assert (map h p = gather 0 (map h (seq 0 n)) p) as ->.
  { unfold gather. apply map_ext_in. intros i Hi. apply (is_perm_In i H) in Hi. symmetry. apply nth_map_seq, Hi. }
  apply unperm_gather. rewrite map_length, seq_length. exact H.
Qed.

Lemma argsort_perm o : Permutation (argsort_nat o) (seq 0 (length o)).
Proof. apply sort_perm. Qed.
Lemma argsort_length o : length (argsort_nat o) = length o.
Proof. rewrite (Permutation_length (argsort_perm o)), seq_length. reflexivity. Qed.
Lemma argsort_lt o k : In k (argsort_nat o) -> k < length o.
Proof. intros H. apply (Permutation_in _ (argsort_perm o)) in H. apply in_seq in H. lia. Qed.
Lemma sort_len o : length (sort Nat.leb o) = length o.
Proof. apply Permutation_length, sort_perm. Qed.
Lemma ranked_length o : length (ranked o) = length o.
Proof. unfold ranked. rewrite gather_length. apply argsort_length. Qed.
Lemma ranked_perm o : Permutation (ranked o) o.
Proof.
  unfold ranked, gather. rewrite (argsort_perm o). fold (gather 0 (sort Nat.leb o) (seq 0 (length o))). rewrite <- (sort_len o), gather_seq. apply sort_perm.
Qed.
Lemma leg_axes_ranked o flat : NoDup o -> incl o flat -> leg_axes o flat = map (fun e => nindex e flat) (ranked o).
Proof.
  intros N I. unfold leg_axes. rewrite filter_all.
  - unfold nuniq. rewrite nodup_fixed_point by exact N. unfold ranked, gather. rewrite map_map. apply map_ext_in. intros k Hk.
    apply (nth_map_lt (fun e => nindex e flat)). rewrite sort_len. apply argsort_lt, Hk.
  - intros x Hx. unfold nuniq in Hx. rewrite nodup_fixed_point in Hx by exact N. apply (Permutation_in _ (sort_perm _ _)) in Hx.
    apply existsb_exists. exists x. split; [apply I, Hx | apply Nat.eqb_refl].
Qed.

Lemma filter_concat_free (B : list (list nat)) x y : NoDup (concat B) -> x < length B -> y < length B ->
  filter (fun o => negb (mem o (nth x B [] ++ nth y B []))) (concat B) = concat (gather [] B (free_axes (length B) [x; y])).
Proof.
  intros N Hx Hy. unfold gather, free_axes.
  assert (forall i j o, i < length B -> j < length B -> In o (nth i B []) -> In o (nth j B []) -> i = j) as DJ.
  { clear - N. revert N. induction B as [|b B IH]; intros N i j o Hi Hj Oi Oj; [cbn in Hi; lia|].
    cbn [concat] in N. apply NoDup_app_iff in N. destruct N as (N1 & N2 & N3).
    assert (forall k, k < length B -> In o (nth k B []) -> In o (concat B)) as IC by (intros k Hk Ok; apply in_concat; exists (nth k B []); split; [apply nth_In, Hk | exact Ok]).
    destruct i as [|i], j as [|j]; cbn [nth length] in *; try reflexivity.
    - exfalso. apply (N3 o Oi). apply (IC j); [lia | exact Oj].
    - exfalso. apply (N3 o Oj). apply (IC i); [lia | exact Oi].
    - f_equal. apply (IH N2 i j o); (lia || assumption). }
  assert (forall l, (forall k, In k l -> k < length B) -> filter (fun o => negb (mem o (nth x B [] ++ nth y B []))) (concat (map (fun k => nth k B []) l)) =
    concat (map (fun k => nth k B []) (filter (fun k => negb (mem k [x; y])) l))) as H.
  2:{ pose proof (gather_seq [] B) as GS. unfold gather in GS. specialize (H (seq 0 (length B))). rewrite GS in H. apply H. intros k Hk. apply in_seq in Hk. lia. }
  induction l as [|k l IH]; intros Hl; [reflexivity|]. cbn [map concat filter]. rewrite filter_app, IH by (intros z Hz; apply Hl; right; exact Hz).
  assert (k < length B) as Hk by (apply Hl; left; reflexivity).
  destruct (mem k [x; y]) eqn:E; cbn [negb].
  - apply mem_In in E. rewrite filter_none; [reflexivity|]. intros o Ho. apply negb_false_iff, mem_In, in_or_app. destruct E as [<-|[<-|[]]]; [left | right]; exact Ho.
  - apply mem_nIn in E. cbn [map concat]. rewrite (filter_all (l := nth k B [])); [reflexivity|]. intros o Ho. apply negb_true_iff, mem_nIn. intros H. apply in_app_or in H.
    destruct H as [H|H]; apply E; [left | right; left]; eapply DJ; eassumption.
Qed.

Section Main.
  Context {G : chg} {K : csr}.
  Add Ring KringM : (rsr K).
  Variables lim blim junk : nat.
  Hypothesis lim_pos : 0 < lim.
  Variable emp : K.
  Notation bst := (bst G K).
  Notation fvl := (@fval nat K).

  (** elementary legs of axis x, and of the axes other than x and y in order *)
  Definition axis_order (t : bst) (x : nat) : list nat := nth x (bord t) [].
  Definition other_legs (t : bst) (x y : nat) : list nat := concat (gather [] (bord t) (free_axes (ndim t) [x; y])).
  (** the check of lines 614-621 *)
  Definition axes_match (t : bst) (x y : nat) : Prop :=
    gather false (bfs t) (axis_order t x) = map negb (gather false (bfs t) (axis_order t y)) /\
    index_eq (flip_index (gather (Raw []) (bcs t) (axis_order t x), gather false (bfs t) (axis_order t x)))
             (gather (Raw []) (bcs t) (axis_order t y), gather false (bfs t) (axis_order t y)) = true.

  Section Tr.
    Variables (t : bst) (x y : nat).
    Hypothesis W : wf_bst t.
    Hypothesis Hx : x < ndim t.
    Hypothesis Hy : y < ndim t.
    Hypothesis HM : axes_match t x y.
    Let o0 := axis_order t x.
    Let o1 := axis_order t y.
    Let flat := concat (bord t).
    Let n := length (bcs t).
    Let fo := other_legs t x y.

    Lemma tr_len : length o0 = length o1.
    Proof. clear lim_pos. destruct HM as [H _]. apply (f_equal (@length bool)) in H. rewrite map_length, !gather_length in H. exact H. Qed.
    Lemma tr_ne : x <> y.
    Proof.
      clear lim_pos. intros E. destruct HM as [H _]. unfold axis_order in H. rewrite <- E in H. destruct W as (_ & _ & _ & _ & Wn). specialize (Wn (nth x (bord t) []) (nth_In _ _ Hx)).
      destruct (nth x (bord t) []) as [|e r]; [congruence|]. cbn [gather map] in H. injection H as H _. destruct (nth e (bfs t) false); discriminate.
    Qed.
    Lemma tr_flat : is_perm n flat.
    Proof. exact (wf_perm W). Qed.
    Lemma tr_nodup : NoDup flat.
    Proof. apply (is_perm_NoDup tr_flat). Qed.
    Lemma tr_in0 : incl o0 flat.
    Proof. intros e He. apply in_concat. exists (nth x (bord t) []). split; [apply nth_In, Hx | exact He]. Qed.
    Lemma tr_in1 : incl o1 flat.
    Proof. intros e He. apply in_concat. exists (nth y (bord t) []). split; [apply nth_In, Hy | exact He]. Qed.
    Lemma tr_fo : fo = filter (fun o => negb (mem o (o0 ++ o1))) flat.
    Proof. symmetry. apply filter_concat_free; [exact tr_nodup | exact Hx | exact Hy]. Qed.
    Lemma tr_all : is_perm n (fo ++ o0 ++ o1).
    Proof.
      assert (is_perm (ndim t) (free_axes (ndim t) [x; y] ++ [x; y])) as Q.
      { apply free_axes_perm; [constructor; [intros [E|[]]; apply tr_ne; symmetry; exact E | constructor; [intros [] | constructor]]|]. intros k [<-|[<-|[]]]; assumption. }
      pose proof (@concat_gather_perm _ (bord t) _ Q) as P. rewrite gather_app, concat_app in P. cbn [gather map concat] in P. rewrite app_nil_r in P.
      unfold is_perm. unfold fo, other_legs, o0, o1, axis_order. unfold gather at 1. unfold gather in P at 1. rewrite P. exact tr_flat.
    Qed.
    Lemma tr_nodup01 : NoDup (o0 ++ o1).
    Proof. pose proof (is_perm_NoDup tr_all) as N. apply NoDup_app_iff in N. apply N. Qed.

    (** legs at the same place of the two axes *)
    Lemma tr_pair e f : In (e, f) (combine o0 o1) ->
      same_charge (nth f (bcs t) (Raw [])) (nth e (bcs t) (Raw [])) /\ nth f (bfs t) false = negb (nth e (bfs t) false).
    Proof.
      clear lim_pos. destruct HM as [H1 H2]. fold o0 o1 in H1, H2. unfold index_eq in H2. rewrite !andb_true_iff in H2. destruct H2 as [[_ H2] _]. cbn [flip_index fst snd] in H2.
      rewrite forallb_forall in H2. intros H. destruct (In_nth _ _ (0, 0) H) as (k & Hk & E). rewrite combine_length, tr_len, Nat.min_id in Hk.
      rewrite combine_nth in E by exact tr_len. injection E as <- <-. split.
      - specialize (H2 (nth (nth k o0 0) (bcs t) (Raw []), nth (nth k o1 0) (bcs t) (Raw []))). cbn [fst snd] in H2. rewrite andb_true_iff in H2.
        destruct H2 as [Q1 Q2].
        + rewrite <- (@nth_gather _ (Raw []) (Raw []) (bcs t) o0 k) by (rewrite tr_len; exact Hk). rewrite <- (@nth_gather _ (Raw []) (Raw []) (bcs t) o1 k) by exact Hk.
          rewrite <- combine_nth by (rewrite !gather_length; exact tr_len). apply nth_In. rewrite combine_length, !gather_length, tr_len, Nat.min_id. exact Hk.
        + apply leqb_true in Q1. apply leqb_true in Q2. split; symmetry; assumption.
      - apply (f_equal (fun l => nth k l false)) in H1. rewrite (@nth_gather _ false false (bfs t) o0 k) in H1 by (rewrite tr_len; exact Hk).
        rewrite (@nth_map_lt _ _ negb _ k false false) in H1 by (rewrite gather_length; exact Hk). rewrite (@nth_gather _ false false (bfs t) o1 k) in H1 by exact Hk.
        rewrite H1, negb_involutive. reflexivity.
    Qed.
    Definition dim (e : nat) : nat := nth e (edims t) 0.
    Lemma tr_dim e f : In (e, f) (combine o0 o1) -> dim f = dim e.
    Proof.
      clear lim_pos. intros H. destruct (tr_pair H) as [[U L] _]. unfold dim, edims. change 0 with (bdim (Raw (G := G) [])). rewrite !map_nth, !ChargeFacts.bdim_rep, !rep_uniques, U, L. reflexivity.
    Qed.

    (** labels: a leg of the second axis has the label of its partner *)
    Definition lab (e : nat) : nat := if mem e o1 then nth (nindex e o1) o0 0 else e.
    Lemma lab_pair e f : In (e, f) (combine o0 o1) -> lab f = e /\ lab e = e.
    Proof.
      clear lim_pos. intros H. pose proof tr_nodup01 as N. apply NoDup_app_iff in N. destruct N as (N0 & N1 & N2).
      unfold lab. rewrite (proj2 (mem_In f o1)) by (apply (in_combine_r _ _ _ _ H)). rewrite (proj2 (mem_nIn e o1)) by (apply N2, (in_combine_l _ _ _ _ H)). split; [|reflexivity].
      destruct (In_nth _ _ (0, 0) H) as (k & Hk & E). rewrite combine_length, tr_len, Nat.min_id in Hk. rewrite combine_nth in E by exact tr_len. injection E as <- <-.
      rewrite index_of_nth by assumption. reflexivity.
    Qed.
    Lemma lab_other e : ~ In e o1 -> lab e = e.
    Proof. intros H. unfold lab. rewrite (proj2 (mem_nIn e o1) H). reflexivity. Qed.
    Lemma partner f : In f o1 -> exists e, In (e, f) (combine o0 o1).
    Proof.
      intros H. destruct (In_nth _ _ 0 H) as (k & Hk & <-). exists (nth k o0 0). rewrite <- (combine_nth o0 o1 k 0 0) by exact tr_len. apply nth_In. rewrite combine_length, tr_len, Nat.min_id. exact Hk.
    Qed.
    Lemma dim_lab e : dim (lab e) = dim e.
    Proof.
      destruct (in_dec Nat.eq_dec e o1) as [I|I]; [|rewrite (lab_other I); reflexivity]. destruct (partner I) as (f & Hf). rewrite (proj1 (lab_pair Hf)). symmetry. apply tr_dim, Hf.
    Qed.
    Lemma lab_inv p e f : In (e, f) (combine o0 o1) -> lab p = e -> p = e \/ p = f.
    Proof.
      intros H E. destruct (in_dec Nat.eq_dec p o1) as [I|I]; [|rewrite (lab_other I) in E; left; exact E]. right.
      destruct (partner I) as (e' & He'). rewrite (proj1 (lab_pair He')) in E. subst e'.
      destruct (In_nth _ _ (0, 0) H) as (k & Hk & E1). destruct (In_nth _ _ (0, 0) He') as (k' & Hk' & E2). rewrite combine_length, tr_len, Nat.min_id in Hk, Hk'.
      rewrite combine_nth in E1, E2 by exact tr_len. injection E1 as E1 E1'. injection E2 as E2 E2'. pose proof tr_nodup01 as N. apply NoDup_app_iff in N. destruct N as (N0 & _).
      assert (k = k') as ->. { apply (proj1 (NoDup_nth o0 0) N0); rewrite ?tr_len; try assumption. rewrite E1, E2. reflexivity. } congruence.
    Qed.

    (** *** the tensor with one axis for every elementary leg *)
    Section Out.
      Variable out : bst.
      Hypothesis Eout : breshape t (gather 0 (edims t) (flat_order t)) = Ok out.
      Lemma out_facts : wf_bst out /\ bdata out = bdata t /\ bcs out = bcs t /\ bfs out = bfs t /\ bord out = map (fun e => [e]) flat /\ bshape out = map dim flat.
      Proof.
        destruct (@breshape_sound G K t (gather 0 (edims t) (flat_order t)) out W) as (W' & D' & C' & F' & O' & S' & _); [| exact Eout |].
        { intros E. apply (wf_nil W). apply length_zero_iff_nil. rewrite <- (is_perm_length (wf_perm W)). apply (f_equal (@length nat)) in E. rewrite gather_length in E. exact E. }
        split; [exact W'|]. split; [exact D'|]. split; [exact C'|]. split; [exact F'|]. split; [|exact S'].
        assert (length (bord out) = length (concat (bord out))) as EL.
        { rewrite O'. apply (f_equal (@length nat)) in S'. rewrite gather_length in S'. unfold bshape in S'. rewrite map_length in S'. exact S'. }
        fold flat in O'. rewrite <- O'. destruct W' as (_ & _ & _ & _ & Wn). clear - EL Wn.
        assert (forall B : list (list nat), (forall o, In o B -> o <> []) -> length B <= length (concat B)) as LE.
        { induction B as [|b B IH]; intros Hn; [cbn; lia|]. cbn [concat length]. rewrite app_length. pose proof (Hn b (or_introl eq_refl)) as Hb. destruct b as [|z b]; [congruence|].
          pose proof (IH (fun o Ho => Hn o (or_intror Ho))). cbn [length]. lia. }
        revert EL Wn. induction (bord out) as [|b B IH]; intros EL Wn; [reflexivity|]. cbn [concat] in *. rewrite map_app.
        pose proof (Wn b (or_introl eq_refl)) as Hb. pose proof (LE B (fun o Ho => Wn o (or_intror Ho))) as LB. rewrite app_length in EL. cbn [length] in EL.
        destruct b as [|z [|z' b]]; cbn [length] in EL; [congruence | | lia]. cbn [map app]. f_equal. apply IH; [lia | intros o Ho; apply Wn; right; exact Ho].
      Qed.
      Lemma Wo : wf_bst out.
      Proof. exact (proj1 out_facts). Qed.
      Lemma out_singles : singles out.
      Proof. intros o Ho. destruct out_facts as (_ & _ & _ & _ & O & _). rewrite O in Ho. apply in_map_iff in Ho. destruct Ho as (e & <- & _). reflexivity. Qed.
      Lemma out_ndim : ndim out = length flat.
      Proof. destruct out_facts as (_ & _ & _ & _ & O & _). unfold ndim. rewrite O. apply map_length. Qed.
      Lemma out_concat : concat (bord out) = flat.
      Proof. destruct out_facts as (_ & _ & _ & _ & O & _). rewrite O. clear. generalize flat. intros l. induction l as [|e l IH]; [reflexivity|]. cbn. rewrite IH. reflexivity. Qed.
      Lemma out_leg p : p < length flat -> leg_at out p = nth p flat 0.
      Proof. intros Hp. destruct out_facts as (_ & _ & _ & _ & O & _). unfold leg_at. rewrite O. rewrite (@nth_map_lt _ _ (fun e => [e]) flat p [] 0) by exact Hp. reflexivity. Qed.
      Lemma out_charge p : p < length flat -> charge_at out p = nth (nth p flat 0) (bcs t) (Raw []) /\ flow_at out p = nth (nth p flat 0) (bfs t) false.
      Proof. intros Hp. destruct out_facts as (_ & _ & C & F & _). unfold charge_at, flow_at. rewrite out_leg by exact Hp. rewrite C, F. split; reflexivity. Qed.
      Lemma pos_flat e : In e flat -> nindex e flat < length flat /\ nth (nindex e flat) flat 0 = e.
      Proof. intros H. split; [apply index_of_lt, H | apply nth_index_of, H]. Qed.

      (** an entry at the values of an assignment *)
      Lemma out_val (b : asg nat) : (forall e, In e flat -> b (lab e) < dim e) ->
        fvl (dense_of out, map lab flat) b = entry (elegs t) (bdata t) (map (fun e => b (lab e)) (seq 0 n)).
      Proof.
        intros Hb. destruct out_facts as (_ & D & C & F & O & S). unfold fval. cbn [fst snd]. rewrite dense_elt. unfold elegs. rewrite C, F, D. fold (elegs t).
        rewrite out_concat. rewrite O, (wf_dims W). f_equal. rewrite map_map. rewrite map_map.
        assert (forall l, (forall e, In e l -> b (lab e) < dim e) -> split_index (map (fun e => gather 0 (edims t) [e]) l) (map (fun e => b (lab e)) l) = map (fun e => b (lab e)) l) as SP.
        { induction l as [|e l IH]; intros Hl; [reflexivity|]. cbn [map split_index]. rewrite IH by (intros z Hz; apply Hl; right; exact Hz).
          pose proof (Hl e (or_introl eq_refl)) as Hd. change (gather 0 (edims t) [e]) with [dim e]. cbn [unravel app]. change (nprod []) with 1. rewrite Nat.div_1_r. reflexivity. }
        rewrite SP by exact Hb. apply unperm_map. exact tr_flat.
      Qed.

      (** the contractions of all pairs *)
      Lemma trace_pairs : paired o0 o1 ->
        exists u, trace_loop lim blim junk emp (length o0) out (leg_axes o0 (concat (bord out))) (leg_axes o1 (concat (bord out))) = Ok u /\ wf_bst u /\
          bcs u = gather (Raw []) (bcs t) fo /\ bfs u = gather false (bfs t) fo /\ bord u = map (fun p => [p]) (seq 0 (length fo)) /\
          shape (dense_of u) = map dim fo /\
          forall J, valid J (map dim fo) -> elt (dense_of u) J =
            lsum (idxs (map dim o0)) (fun vs => entry (elegs t) (bdata t) (unperm 0 (fo ++ o0 ++ o1) (J ++ vs ++ vs))).
      Proof.
        intros HP. pose proof tr_nodup01 as N01. apply NoDup_app_iff in N01. destruct N01 as (N0 & N1 & N2).
        rewrite out_concat. rewrite (leg_axes_ranked N0 tr_in0), (leg_axes_ranked N1 tr_in1).
        set (a0 := map (fun e => nindex e flat) (ranked o0)). set (a1 := map (fun e => nindex e flat) (ranked o1)).
        assert (forall e, In e (ranked o0 ++ ranked o1) -> In e flat) as IN.
        { intros e He. apply in_app_or in He. destruct He as [He|He]; apply (Permutation_in _ (ranked_perm _)) in He; [apply tr_in0 | apply tr_in1]; exact He. }
        assert (forall e, In e flat -> nth (nindex e flat) (map lab flat) 0 = lab e) as NLab.
        { intros e He. destruct (pos_flat He) as [P1 P2]. rewrite (@nth_map_lt _ _ lab flat _ 0 0) by exact P1. rewrite P2. reflexivity. }
        assert (forall i j, In (i, j) (combine a0 a1) -> exists e f, In (e, f) (combine o0 o1) /\ i = nindex e flat /\ j = nindex f flat) as CB.
        { intros i j Hij. assert (exists e f, In (e, f) (combine (ranked o0) (ranked o1)) /\ i = nindex e flat /\ j = nindex f flat) as (e & f & H1 & H2 & H3).
          { unfold a0, a1 in Hij. clear IN a0 a1. revert Hij. generalize (ranked o1). clear. induction (ranked o0) as [|e r IH]; intros [|f r'] H; cbn in H; try contradiction. destruct H as [H|H].
            - injection H as <- <-. exists e, f. split; [left; reflexivity | split; reflexivity].
            - destruct (IH r' H) as (e' & f' & Q1 & Q2 & Q3). exists e', f'. split; [right; exact Q1 | split; assumption]. }
          exists e, f. split; [apply HP, H1 | split; assumption]. }
        destruct (@trace_loop_spec G K lim blim junk lim_pos emp dim (length o0) a0 a1 out (map lab flat)) as (u & Eu & Wu & Su & Nu & Cu & Ou & Fu & Vu).
        - unfold a0. rewrite map_length, ranked_length. lia.
        - unfold a0, a1. rewrite !map_length, !ranked_length. symmetry. exact tr_len.
        - exact Wo.
        - exact out_singles.
        - rewrite map_length. symmetry. exact out_ndim.
        - unfold fits. cbn [fst snd]. rewrite <- (wf_shape Wo), map_map. destruct out_facts as (_ & _ & _ & _ & _ & ->). apply map_ext. intros e. symmetry. apply dim_lab.
        - unfold a0, a1. rewrite <- map_app. apply NoDup_map_in.
          + intros e f He Hf E. destruct (pos_flat (IN _ He)) as [_ <-]. destruct (pos_flat (IN _ Hf)) as [_ <-]. rewrite E. reflexivity.
          + apply (Permutation_NoDup (l := o0 ++ o1)); [symmetry; apply Permutation_app; apply ranked_perm | exact tr_nodup01].
        - unfold a0, a1. rewrite <- map_app. intros p Hp. apply in_map_iff in Hp. destruct Hp as (e & <- & He). rewrite out_ndim. apply pos_flat, IN, He.
        - intros i j Hij. destruct (CB i j Hij) as (e & f & Hef & -> & ->).
          assert (In e flat) as Ie by (apply tr_in0, (in_combine_l _ _ _ _ Hef)). assert (In f flat) as If by (apply tr_in1, (in_combine_r _ _ _ _ Hef)).
          destruct (pos_flat Ie) as [E1 E2]. destruct (pos_flat If) as [F1 F2]. destruct (out_charge E1) as [Ce Fe]. destruct (out_charge F1) as [Cf Ff]. rewrite E2 in Ce, Fe. rewrite F2 in Cf, Ff.
          destruct (tr_pair Hef) as [P1 P2]. destruct (lab_pair Hef) as [L1 L2].
          split; [split; [rewrite Ce, Cf; exact P1 | rewrite Fe, Ff; exact P2]|]. rewrite !NLab by assumption. split; [rewrite L1, L2; reflexivity|].
          intros p Hp Ep. rewrite out_ndim in Hp. rewrite (@nth_map_lt _ _ lab flat p 0 0) in Ep by exact Hp. rewrite L2 in Ep.
          destruct (lab_inv Hef Ep) as [E|E]; [left | right]; rewrite <- E; symmetry; apply index_of_nth; try exact Hp; exact tr_nodup.
        - exists u. split; [exact Eu|]. split; [exact Wu|].
          set (F := free_axes (ndim out) (a0 ++ a1)) in *.
          assert (forall p, In p F -> p < length flat) as RF by (intros p Hp; apply In_free_axes in Hp; rewrite <- out_ndim; apply Hp).
          assert (gather 0 flat F = fo) as EF.
          { rewrite tr_fo. rewrite <- (filter_index flat (fun o => negb (mem o (o0 ++ o1)))). unfold gather, F, free_axes. rewrite out_ndim. f_equal. apply filter_ext_in.
            intros k Hk. apply in_seq in Hk. f_equal. apply mem_eq. unfold a0, a1. rewrite <- map_app, in_map_iff. split.
            - intros (e & <- & He). destruct (pos_flat (IN _ He)) as [_ ->]. apply in_app_or in He. apply in_or_app. destruct He as [He|He]; [left | right]; apply (Permutation_in _ (ranked_perm _)), He.
            - intros He. exists (nth k flat 0). split; [apply index_of_nth; [exact tr_nodup | lia]|]. apply in_app_or in He. apply in_or_app.
              destruct He as [He|He]; [left | right]; apply (Permutation_in _ (Permutation_sym (ranked_perm _))), He. }
          assert (length F = length fo) as LF by (rewrite <- EF; symmetry; apply gather_length).
          assert (forall e, In e fo -> In e flat /\ ~ In e o0 /\ ~ In e o1) as IFO.
          { intros e He. rewrite tr_fo in He. apply filter_In in He. destruct He as [H1 H2]. apply negb_true_iff, mem_nIn in H2. split; [exact H1|]. split; intros H; apply H2, in_or_app; [left | right]; exact H. }
          assert (gather 0 (map lab flat) F = fo) as EL.
          { transitivity (gather 0 flat F); [|exact EF]. unfold gather. apply map_ext_in. intros p Hp. rewrite (@nth_map_lt _ _ lab flat p 0 0) by (apply RF, Hp).
            apply lab_other. apply IFO. rewrite <- EF. unfold gather. apply in_map_iff. exists p. split; [reflexivity | exact Hp]. }
          assert (gather 0 (map lab flat) a0 = ranked o0) as E0.
          { unfold gather, a0. rewrite map_map. rewrite <- (map_id (ranked o0)) at 2. apply map_ext_in. intros e He. rewrite NLab by (apply IN, in_or_app; left; exact He).
            apply lab_other. apply N2. apply (Permutation_in _ (ranked_perm _)), He. }
          rewrite EL in Fu, Vu. rewrite E0 in Vu. rewrite LF in Nu.
          assert (a0 <> []) as Na.
          { intros E. apply (f_equal (@length nat)) in E. unfold a0 in E. rewrite map_length, ranked_length in E. apply length_zero_iff_nil in E.
            destruct W as (_ & _ & _ & _ & Wn). apply (Wn (nth x (bord t) [])); [apply nth_In, Hx | exact E]. }
          specialize (Ou (or_introl Na)). rewrite Nu in Ou.
          assert (length (bcs u) = length fo) as Lb.
          { rewrite <- (is_perm_length (wf_perm Wu)), Ou. clear. generalize 0 fo. intros k l. revert k. induction l as [|e l IH]; intros k; [reflexivity|]. cbn [length seq map concat app]. rewrite IH. reflexivity. }
          assert (forall k, k < length fo -> leg_at u k = k) as LA.
          { intros k Hk. unfold leg_at. rewrite Ou. rewrite (@nth_map_lt _ _ (fun p => [p]) (seq 0 (length fo)) k [] 0) by (rewrite seq_length; exact Hk). rewrite seq_nth by exact Hk. reflexivity. }
          assert (forall k, k < length fo -> nth (nth k F 0) flat 0 = nth k fo 0) as NF by (intros k Hk; rewrite <- EF; symmetry; apply nth_gather; rewrite LF; exact Hk).
          assert (forall k, k < length fo -> nth k (bcs u) (Raw []) = nth (nth k fo 0) (bcs t) (Raw []) /\ nth k (bfs u) false = nth (nth k fo 0) (bfs t) false) as NB.
          { intros k Hk. rewrite Nu in Cu. destruct (Cu k Hk) as [Q1 Q2]. unfold charge_at at 1 in Q1. unfold flow_at at 1 in Q2. rewrite (LA k Hk) in Q1, Q2. rewrite Q1, Q2.
            destruct (@out_charge (nth k F 0)) as [R1 R2]; [apply RF, nth_In; rewrite LF; exact Hk|]. rewrite R1, R2, (NF k Hk). split; reflexivity. }
          split; [apply (nth_ext _ _ (Raw []) (Raw [])); [rewrite gather_length; exact Lb | intros k Hk; rewrite Lb in Hk; rewrite (proj1 (NB k Hk)); symmetry; apply nth_gather, Hk]|].
          split; [apply (nth_ext _ _ false false); [rewrite gather_length, <- (wf_len Wu); exact Lb | intros k Hk; rewrite <- (wf_len Wu), Lb in Hk; rewrite (proj2 (NB k Hk)); symmetry; apply nth_gather, Hk]|].
          split; [exact Ou|]. split; [exact Fu|]. intros J HJ. pose proof (valid_length HJ) as LJ. rewrite map_length in LJ.
          set (a := fun e => nth (nindex e fo) J 0).
          assert (NoDup fo) as Nfo by (rewrite tr_fo; apply NoDup_filter, tr_nodup).
          assert (map a fo = J) as EJ.
          { apply (nth_ext _ _ 0 0); [rewrite map_length; symmetry; exact LJ|]. intros k Hk. rewrite map_length in Hk. rewrite (@nth_map_lt _ _ a fo k 0 0) by exact Hk. unfold a. rewrite index_of_nth by assumption. reflexivity. }
          assert (forall e, In e fo -> a e < dim e) as Aok.
          { intros e He. unfold a. pose proof (index_of_lt Nat.eq_dec e fo He) as Hi. pose proof (@valid_nth J (map dim fo) (nindex e fo) HJ) as V. rewrite map_length in V. specialize (V Hi).
            rewrite (@nth_map_lt _ _ dim fo _ 0 0) in V by exact Hi. rewrite nth_index_of in V by exact He. exact V. }
          assert (forall e, In e flat -> ~ In (lab e) o0 -> In (lab e) fo /\ lab e = e) as LO.
          { intros e He Hn. destruct (in_dec Nat.eq_dec e o1) as [I|I].
            - exfalso. apply Hn. destruct (partner I) as (f & Hf). rewrite (proj1 (lab_pair Hf)). apply (in_combine_l _ _ _ _ Hf).
            - rewrite (lab_other I) in *. split; [|reflexivity]. rewrite tr_fo. apply filter_In. split; [exact He|]. apply negb_true_iff, mem_nIn. intros H. apply in_app_or in H. tauto. }
          pose proof (Vu a) as V. unfold fval at 1 in V. cbn [fst snd] in V. rewrite EJ in V. rewrite V.
          2:{ intros e He Hn. apply in_map_iff in He. destruct He as (g & <- & Hg). apply Aok. apply LO; [exact Hg|]. intros H. apply Hn, (Permutation_in _ (Permutation_sym (ranked_perm _))), H. }
          rewrite (@esum_perm nat Nat.eq_dec K dim (ranked o0) o0); [| eapply dep_ext, fval_dep | apply (Permutation_NoDup (Permutation_sym (ranked_perm _)) N0) | apply ranked_perm].
          rewrite esum_idxs. apply lsum_ext. intros vs Hvs. apply In_idxs in Hvs. pose proof (valid_length Hvs) as Lvs. rewrite map_length in Lvs.
          set (b := binds Nat.eq_dec a o0 vs).
          assert (map b o0 = vs) as Mb by (apply map_binds; [exact N0 | exact Lvs]).
          assert (map b fo = J) as Mf. { rewrite <- EJ. apply map_ext_in. intros e He. apply binds_other. apply (IFO e He). }
          rewrite out_val.
          + f_equal. rewrite <- (unperm_map (fun e => b (lab e)) tr_all). f_equal. rewrite !map_app. f_equal; [|f_equal].
            * transitivity (map b fo); [|exact Mf]. apply map_ext_in. intros e He. rewrite lab_other; [reflexivity | apply (IFO e He)].
            * transitivity (map b o0); [|exact Mb]. apply map_ext_in. intros e He. rewrite lab_other; [reflexivity | apply N2, He].
            * transitivity (map b o0); [|exact Mb]. apply (nth_ext _ _ 0 0); [rewrite !map_length; symmetry; exact tr_len|]. intros k Hk. rewrite map_length in Hk.
              rewrite (@nth_map_lt _ _ (fun e => b (lab e)) o1 k 0 0) by exact Hk. rewrite (@nth_map_lt _ _ b o0 k 0 0) by (rewrite tr_len; exact Hk). f_equal.
              apply lab_pair. rewrite <- (combine_nth o0 o1 k 0 0) by exact tr_len. apply nth_In. rewrite combine_length, tr_len, Nat.min_id. exact Hk.
          + intros e He. rewrite <- (dim_lab e). destruct (in_dec Nat.eq_dec (lab e) o0) as [I|I].
            * pose proof (index_of_lt Nat.eq_dec (lab e) o0 I) as Hi. pose proof (@valid_nth vs (map dim o0) (nindex (lab e) o0) Hvs) as Q. rewrite map_length in Q. specialize (Q Hi).
              rewrite (@nth_map_lt _ _ dim o0 _ 0 0) in Q by exact Hi. rewrite nth_index_of in Q by exact I.
              rewrite <- Mb in Q. rewrite (@nth_map_lt _ _ b o0 _ 0 0) in Q by exact Hi. rewrite nth_index_of in Q by exact I. exact Q.
            * unfold b. rewrite binds_other by exact I. apply Aok. apply LO; assumption.
      Qed.
    End Out.
  End Tr.
End Main.
