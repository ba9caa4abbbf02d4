(** * WaveTrotter: Trotter gates and evolution *)
From Coq Require Import Permutation List Lia.
From Verif Require Import Prelude Algebra Tensor TensorFacts ListFacts Graph GraphBase GraphContract Wave WaveSpec WaveFacts WaveInv WaveMain.
Import ListNotations.
Set Implicit Arguments.
Unset Strict Implicit.

Section WT.
  Context {R : cjr}.
  Variable iter : list nat -> list nat.
  Hypothesis iter_perm : forall l, Permutation (iter l) l.
  Notation "x *! y" := (rmul x y) (at level 40, left associativity).
  Add Ring Rwt : (rsr R).
  Implicit Types (psi T : tensor R) (G H : list (tensor R)).

  (** ** equal tensors *)
  Lemma teq_refl T : teq T T.
  Proof. split; auto. Qed.
  Lemma teq_sym T T' : teq T T' -> teq T' T.
  Proof. intros [H1 H2]. split; [congruence|]. intros ix Hx. symmetry. apply H2. congruence. Qed.
  Lemma teq_trans T T' T'' : teq T T' -> teq T' T'' -> teq T T''.
  Proof. intros [H1 H2] [H3 H4]. split; [congruence|]. intros ix Hx. rewrite H2 by exact Hx. apply H4. congruence. Qed.

  Lemma valid_nth ix sh : valid ix sh <-> length ix = length sh /\ forall j, j < length sh -> nth j ix 0 < nth j sh 0.
  Proof.
    split.
    - intros H. split; [apply (valid_length H)|]. induction H as [|x y l l' H H' IH]; intros j Hj; cbn in *; [lia|]. destruct j; [exact H|]. apply IH. lia.
    - revert sh. induction ix as [|x ix IH]; intros [|d sh] [H1 H2]; try discriminate; constructor.
      + apply (H2 0). cbn. lia.
      + apply IH. split; [cbn in H1; lia|]. intros j Hj. apply (H2 (S j)). cbn. lia.
  Qed.

  Lemma act_teq ts op psi psi' : takes ts op psi -> teq psi psi' -> teq (act ts op psi) (act ts op psi').
  Proof.
    intros (ND & Hr & Hw & Hrk & Hsk) [Hs Hv]. split; [unfold act; cbn [shape]; rewrite Hs; reflexivity|].
    intros ys Hys. unfold act in *. cbn [elt shape] in *. apply lsum_ext. intros vs Hvs. f_equal. apply Hv.
    apply In_idxs, valid_nth in Hvs. destruct Hvs as [Lv Hvs]. apply valid_nth in Hys. rewrite over_length in Hys. destruct Hys as [Ly Hys].
    assert (length vs = length ts) as Lv' by (rewrite Lv, Hsk, map_length; reflexivity).
    apply valid_nth. split; [rewrite over_length; exact Ly|]. intros j Hj. rewrite nth_over by lia. specialize (Hys j Hj). rewrite nth_over in Hys by exact Hj.
    destruct (position j ts) as [k|] eqn:E; [|exact Hys]. destruct (position_some E) as [Hk <-].
    specialize (Hvs k ltac:(lia)). rewrite Hsk in Hvs. rewrite (@nth_map_0 (fun t => nth t (shape psi) 0) ts k Hk) in Hvs. exact Hvs.
  Qed.
  Lemma takes_shape ts op psi psi' : shape psi = shape psi' -> takes ts op psi -> takes ts op psi'.
  Proof. intros E. unfold takes, rank. rewrite E. auto. Qed.
  Lemma run_teq (gs : list (nat * tensor R)) : forall psi psi', runs_ok gs psi -> teq psi psi' -> teq (run gs psi) (run gs psi').
  Proof. induction gs as [|g gs IH]; intros psi psi' H E; cbn in *; [exact E|]. apply IH; [apply H|]. apply act_teq; [apply H|exact E]. Qed.

  (** ** chains *)
  Definition fits_chain psi (g : nat * tensor R) : Prop :=
    S (fst g) < rank psi /\ shape (snd g) = [nth (fst g) (shape psi) 0; nth (S (fst g)) (shape psi) 0; nth (fst g) (shape psi) 0; nth (S (fst g)) (shape psi) 0].
  Lemma fits_takes psi g : fits_chain psi g -> takes (sites_of g) (snd g) psi /\ shape (act (sites_of g) (snd g) psi) = shape psi.
  Proof.
    destruct g as [n g]. intros [Hn Hs]. cbn [fst snd] in *. unfold sites_of. cbn [fst snd].
    assert (rank g / 2 = 2) as -> by (unfold rank; rewrite Hs; reflexivity). cbn [seq].
    split.
    - split; [constructor; [intros [K|[]]; lia|constructor; [intros []|constructor]]|]. split; [intros t [<-|[<-|[]]]; lia|]. split; [cbn; lia|].
      split; [unfold rank; rewrite Hs; reflexivity|]. rewrite Hs. reflexivity.
    - unfold act. cbn [shape length]. rewrite Hs. cbn [firstn]. apply (nth_ext _ _ 0 0); [apply over_length|]. rewrite over_length. intros j Hj. rewrite nth_over by exact Hj.
      cbn [position]. destruct (Nat.eqb_spec j n) as [->|]; [reflexivity|]. cbn [option_map]. destruct (Nat.eqb_spec j (S n)) as [->|]; reflexivity.
  Qed.
  Lemma fits_shape psi psi' g : shape psi = shape psi' -> fits_chain psi g -> fits_chain psi' g.
  Proof. intros E. unfold fits_chain, rank. rewrite E. auto. Qed.
  Lemma fits_runs gs : forall psi, (forall g, In g gs -> fits_chain psi g) -> runs_ok gs psi /\ shape (run gs psi) = shape psi.
  Proof.
    induction gs as [|g gs IH]; intros psi H; cbn [run runs_ok]; [auto|]. destruct (fits_takes (H g (or_introl eq_refl))) as [H1 H2].
    destruct (IH (act (sites_of g) (snd g) psi)) as [H3 H4].
    - intros g' Hg'. apply (@fits_shape psi); [congruence|]. apply H. right. exact Hg'.
    - split; [auto|congruence].
  Qed.
  Lemma half_fits psi G odd g : chain G psi -> In g (half odd G) -> fits_chain psi g.
  Proof.
    intros [Hl Hs] Hg. unfold half in Hg. apply in_flat_map in Hg. destruct Hg as (n & Hn & Hg). destruct (Bool.eqb (Nat.odd n) odd); [|destruct Hg].
    destruct (nth_error G n) as [t|] eqn:E; [|destruct Hg]. destruct Hg as [<-|[]]. apply in_seq in Hn. split; [cbn [fst]; lia|]. apply (Hs n t E).
  Qed.
  Lemma chain_shape psi psi' G : shape psi = shape psi' -> chain G psi -> chain G psi'.
  Proof. intros E. unfold chain, rank. rewrite E. auto. Qed.
  Lemma step_runs psi G : chain G psi -> runs_ok (half false G ++ half true G) psi /\ shape (step G psi) = shape psi.
  Proof.
    intros H. destruct (fits_runs (fun g Hg => half_fits (odd := false) H Hg)) as [H1 H2].
    destruct (@fits_runs (half true G) (run (half false G) psi)) as [H3 H4].
    - intros g Hg. apply (@fits_shape psi); [congruence|]. apply (half_fits H Hg).
    - split; [apply runs_ok_app; auto|unfold step; congruence].
  Qed.

  Section Gates.
    Variables (expm : tensor R -> tensor R) (iu : R) (ng : R -> R).

    Lemma placed_half odd G N : S (length G) = N -> placed N (trotter_layer odd N G) = half odd G.
    Proof.
      intros <-. unfold placed, half. rewrite seq_S, flat_map_app. cbn [flat_map]. rewrite app_nil_r.
      assert (forall n, n < S (length G) -> nth n (trotter_layer odd (S (length G)) G) None = if Bool.eqb (Nat.odd n) odd then nth_error G n else None) as Q.
      { intros n Hn. unfold trotter_layer. set (F := fun n => if Bool.eqb (Nat.odd n) odd then nth_error G n else None).
        rewrite (nth_indep _ None (F 0)) by (rewrite map_length, seq_length; exact Hn). rewrite map_nth, seq_nth by exact Hn. reflexivity. }
      assert (nth_error G (0 + length G) = None) as En by (apply nth_error_None; cbn; lia).
      rewrite (Q (0 + length G)) by (cbn; lia). rewrite En. destruct (Bool.eqb (Nat.odd (0 + length G)) odd); rewrite app_nil_r; apply flat_map_ext_in;
        intros n Hn; apply in_seq in Hn; rewrite Q by lia; destruct (Bool.eqb (Nat.odd n) odd); reflexivity.
    Qed.

    Lemma layer_apart odd G N : (forall g, In g G -> rank g = 4) -> apart N (trotter_layer odd N G).
    Proof.
      intros H4 n n' g g' H1 H2 Hn.
      assert (forall k t, nth k (trotter_layer odd N G) None = Some t -> Nat.odd k = odd /\ In t G) as Q.
      { intros k t Hk. assert (k < N) as Lk.
        { destruct (Nat.lt_ge_cases k N); [assumption|]. rewrite nth_overflow in Hk; [discriminate|]. unfold trotter_layer. rewrite map_length, seq_length. assumption. }
        unfold trotter_layer in Hk. set (F := fun n => if Bool.eqb (Nat.odd n) odd then nth_error G n else None) in Hk.
        rewrite (nth_indep _ None (F 0)) in Hk by (rewrite map_length, seq_length; exact Lk). rewrite map_nth, seq_nth in Hk by exact Lk. unfold F in Hk. cbn [plus] in Hk.
        destruct (Bool.eqb (Nat.odd k) odd) eqn:E; [|discriminate]. apply Bool.eqb_prop in E. split; [exact E|]. apply (nth_error_In _ _ Hk). }
      destruct (Q n g H1) as [O1 I1]. destruct (Q n' g' H2) as [O2 _]. rewrite (H4 g I1). cbn. 
      destruct (Nat.eq_dec n' (S n)) as [->|]; [|lia]. rewrite Nat.odd_succ, <- Nat.negb_odd, O1 in O2. destruct odd; discriminate.
    Qed.

    Lemma prepare_some H dt N eu layers : trotter_prepare_gates expm iu ng H dt N eu = Some layers <->
      S (length H) = N /\ H <> [] /\ (forall h, In h H -> rank h = 4) /\
      layers = [trotter_layer false N (map (trotter_gate expm (trotter_factor iu ng dt eu)) H); trotter_layer true N (map (trotter_gate expm (trotter_factor iu ng dt eu)) H)].
    Proof.
      unfold trotter_prepare_gates. destruct (Nat.eqb_spec (S (length H)) N) as [E|E]; cbn [negb]; [|split; [discriminate|tauto]].
      destruct (Nat.eqb_spec (length H) 0) as [E0|E0]; [destruct H; [|discriminate]; split; [discriminate|intros (_ & K & _); congruence]|].
      destruct (existsb (fun h => negb (rank h =? 4)) H) eqn:Ex.
      - split; [discriminate|]. intros (_ & _ & K & _). apply existsb_exists in Ex. destruct Ex as (h & Hh & Q). rewrite (K h Hh) in Q. discriminate.
      - split.
        + intros Q. injection Q as <-. split; [exact E|]. split; [intros ->; apply E0; reflexivity|]. split; [|reflexivity].
          intros h Hh. destruct (Nat.eqb_spec (rank h) 4) as [|K]; [assumption|]. exfalso. apply Nat.eqb_neq in K. assert (existsb (fun h => negb (rank h =? 4)) H = true) by (apply existsb_exists; exists h; rewrite K; auto). congruence.
        + intros (_ & _ & _ & ->). reflexivity.
    Qed.

    Lemma gate_shape c h : shape (trotter_gate expm c h) = shape h.
    Proof. reflexivity. Qed.

    (** the entries of a gate are those of the exponential of the matrix c h *)
    Lemma gate_entries c h : rank h = 4 -> (forall m m', teq m m' -> teq (expm m) (expm m')) -> (forall m, shape (expm m) = shape m) ->
      forall i j k l, valid [i; j; k; l] (shape h) ->
      elt (trotter_gate expm c h) [i; j; k; l] = elt (expm (term_matrix c h)) [i * nth 1 (shape h) 0 + j; k * nth 3 (shape h) 0 + l].
    Proof.
      intros H4 He Hs i j k l V. destruct h as [sh f]. unfold rank in H4. cbn [shape] in *.
      destruct sh as [|d0 [|d1 [|d2 [|d3 [|? ?]]]]]; try discriminate. clear H4. cbn [nth] in *.
      inversion V as [|? ? ? ? Vi V1]; subst. inversion V1 as [|? ? ? ? Vj V2]; subst. inversion V2 as [|? ? ? ? Vk V3]; subst. inversion V3 as [|? ? ? ? Vl V4]; subst. clear V V1 V2 V3 V4.
      unfold trotter_gate, reshape. cbn [shape elt nth]. set (X := Tensor [d0 * d1; d2 * d3] _). set (Y := term_matrix c _).
      assert (teq X Y) as E.
      { split; [reflexivity|]. intros ix Hix. cbn [X Y shape] in Hix. inversion Hix as [|r ? ix1 ? Hr Hix1]; subst. inversion Hix1 as [|q ? ix2 ? Hq Hix2]; subst. inversion Hix2; subst.
        unfold X, Y, term_matrix. cbn [elt shape nth]. f_equal. f_equal.
        assert (d1 <> 0 /\ d3 <> 0) as [Z1 Z3] by (split; intros ->; lia).
        assert (ravel [d0 * d1; d2 * d3] [r; q] = ravel [d0; d1; d2; d3] [r / d1; r mod d1; q / d3; q mod d3]) as ->.
        { pose proof (Nat.div_mod r d1 Z1) as E1. pose proof (Nat.div_mod q d3 Z3) as E3. cbn [ravel nprod fold_right].
          set (r1' := r / d1) in *. set (r2' := r mod d1) in *. set (q1' := q / d3) in *. set (q2' := q mod d3) in *. clearbody r1' r2' q1' q2'. subst r q. ring. }
        apply unravel_ravel. repeat constructor; try (apply Nat.mod_upper_bound; assumption); apply Nat.div_lt_upper_bound; auto; lia. }
      assert (ravel [d0; d1; d2; d3] [i; j; k; l] = ravel (shape (expm X)) [i * d1 + j; k * d3 + l]) as ->.
      { rewrite Hs. cbn [X shape ravel nprod fold_right]. ring. }
      assert (valid [i * d1 + j; k * d3 + l] (shape (expm X))) as V2.
      { rewrite Hs. repeat constructor; nia. }
      rewrite unravel_ravel by exact V2. apply (He _ _ E). exact V2.
    Qed.
  End Gates.

  (** ** evolution *)
  Section Evolve.
    Variables (norm : list R -> R) (dv : R -> R -> R).
    Lemma normalize_teq psi psi' : teq psi psi' -> teq (normalize norm dv psi) (normalize norm dv psi').
    Proof.
      intros [H1 H2]. split; [exact H1|]. intros ix Hx. cbn [normalize elt shape] in *. rewrite H2 by exact Hx. f_equal. f_equal. unfold to_list. rewrite <- H1.
      apply map_ext_in. intros ys Hy. apply H2, In_idxs, Hy.
    Qed.
    Definition post (eu : bool) (psi : tensor R) : tensor R := if eu then normalize norm dv psi else psi.
    Lemma post_teq eu psi psi' : teq psi psi' -> teq (post eu psi) (post eu psi').
    Proof. destruct eu; [apply normalize_teq|auto]. Qed.
    Lemma post_shape eu psi : shape (post eu psi) = shape psi.
    Proof. destruct eu; reflexivity. Qed.

    Lemma evolve_ok G dt eu : (forall g, In g G -> rank g = 4) -> forall k psi psi' t s, wf s -> chain G psi -> teq psi psi' ->
      exists s' T, evolve_gates iter norm dv psi t [trotter_layer false (rank psi) G; trotter_layer true (rank psi) G] dt k eu s = (s', Some (T, radd t (lsum (repeat tt k) (fun _ => dt)))) /\
        wf s' /\ teq T (steps (post eu) G k psi').
    Proof.
      intros H4. induction k as [|k IH]; intros psi psi' t s W Hc E; cbn [evolve_gates steps repeat].
      { exists s, psi. rewrite lsum_nil. split; [unfold ret; do 3 f_equal; ring|auto]. }
      destruct (step_runs Hc) as [Hr Hsh]. pose proof (proj1 Hc) as Hl.
      destruct (@apply_circuit_ok R iter iter_perm s psi [trotter_layer false (rank psi) G; trotter_layer true (rank psi) G] W) as (s1 & T1 & E1 & W1 & Q1).
      { intros gates [<-|[<-|[]]]; apply layer_apart; exact H4. }
      { cbn [flat_map]. rewrite !placed_half, app_nil_r by exact Hl. exact Hr. }
      cbn [flat_map] in Q1. rewrite !placed_half, app_nil_r in Q1 by exact Hl. rewrite run_app in Q1. fold (step G psi) in Q1.
      assert (teq (step G psi) (step G psi')) as Q2.
      { unfold step. rewrite <- !run_app. apply run_teq; assumption. }
      assert (shape T1 = shape psi) as HT by (rewrite (proj1 Q1); exact Hsh).
      unfold bind. rewrite E1. fold (post eu T1).
      assert (rank (post eu T1) = rank psi) as Hrk by (unfold rank; rewrite post_shape, HT; reflexivity).
      destruct (IH (post eu T1) (post eu (step G psi')) (radd t dt) s1 W1) as (s2 & T & E2 & W2 & Q3).
      - apply (@chain_shape psi); [rewrite post_shape; congruence|exact Hc].
      - apply post_teq. apply (teq_trans Q1 Q2).
      - rewrite Hrk in E2. exists s2, T. split; [|auto]. rewrite E2. rewrite lsum_cons. do 3 f_equal. ring.
    Qed.

    Theorem evolve_trotter_ok expm iu ng s psi H dt k eu : wf s -> H <> [] -> chain H psi ->
      exists s' T, evolve_trotter iter expm iu ng norm dv psi H dt k eu s = (s', Some (T, lsum (repeat tt k) (fun _ => dt))) /\ wf s' /\
        teq T (steps (post eu) (map (trotter_gate expm (trotter_factor iu ng dt eu)) H) k psi).
    Proof.
      intros W Hn Hc. set (G := map (trotter_gate expm (trotter_factor iu ng dt eu)) H).
      assert (forall h, In h H -> rank h = 4) as H4.
      { intros h Hh. destruct (In_nth_error _ _ Hh) as (n & E). unfold rank. rewrite (proj2 Hc n h E). reflexivity. }
      assert (chain G psi) as Hg.
      { split; [unfold G; rewrite map_length; apply Hc|]. intros n g E. unfold G in E. rewrite nth_error_map in E. destruct (nth_error H n) as [h|] eqn:Eh; [|discriminate]. injection E as <-.
        rewrite gate_shape. apply (proj2 Hc n h Eh). }
      unfold evolve_trotter. rewrite (proj2 (prepare_some expm iu ng H dt (rank psi) eu _) (conj (proj1 Hc) (conj Hn (conj H4 eq_refl)))). fold G.
      destruct (@evolve_ok G dt eu) with (k := k) (psi := psi) (psi' := psi) (t := r0 : R) (s := s) as (s' & T & E & W' & Q); auto.
      - intros g Hg'. unfold G in Hg'. apply in_map_iff in Hg'. destruct Hg' as (h & <- & Hh). apply (H4 h Hh).
      - apply teq_refl.
      - exists s', T. split; [rewrite E; do 3 f_equal; ring|auto].
    Qed.
  End Evolve.

  (** ** an operator that reaches past the last site *)
  Lemma op_loop_out op w n1 ms : forall (state : list eid) (s : @st R) m, In m ms -> length state <= n1 + m -> snd (op_loop op w n1 false ms state s) = None.
  Proof.
    induction ms as [|m0 ms IH]; intros state s m Hm Hl; [destruct Hm|]. cbn [op_loop]. unfold bind at 1. destruct (edge_of op (w + m0) s) as [s1 [e|]]; [|reflexivity].
    destruct (nth_error state (n1 + m0)) as [site|] eqn:E; [|reflexivity]. unfold bind at 1. destruct (connect e site s1) as [s2 [?|]]; [|reflexivity].
    unfold bind at 1. destruct (edge_of op m0 s2) as [s3 [o|]]; [|reflexivity]. destruct Hm as [->|Hm].
    - apply nth_error_None in Hl. congruence.
    - apply (IH _ _ m Hm). rewrite replace_nth_length. exact Hl.
  Qed.
  Lemma out_fails s psi op n1 : wf s -> rank psi < n1 + rank op / 2 -> 0 < rank op / 2 ->
    snd (apply_op iter psi op n1 false s) = None /\ snd (expval iter psi op n1 false s) = None.
  Proof.
    intros W Ho Hw. destruct (winv_start psi W) as (s1 & n & state & E1 & E2 & I).
    assert (length state = rank psi) as Ls by (rewrite <- (map_length (edim s1)), (wi_dims I); reflexivity).
    assert (snd (apply_op_network state op n1 false s1) = None) as K.
    { unfold apply_op_network. unfold bind at 1. destruct (new_node op None s1) as [s2 [m|]]; [|reflexivity]. unfold bind at 1.
      assert (snd (op_loop m (rank op / 2) n1 false (seq 0 (rank op / 2)) state s2) = None) as K.
      { apply (@op_loop_out m _ n1 _ state s2 (rank op / 2 - 1)); [apply in_seq; lia|lia]. }
      destruct (op_loop m (rank op / 2) n1 false (seq 0 (rank op / 2)) state s2) as [s3 [?|]]; [discriminate|reflexivity]. }
    unfold apply_op, expval, bind. rewrite E1, E2. destruct (apply_op_network state op n1 false s1) as [s3 [?|]]; [discriminate|split; reflexivity].
  Qed.
End WT.
