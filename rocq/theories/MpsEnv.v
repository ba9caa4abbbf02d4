(** * MpsEnv: [left_envs], [right_envs] *)
From Coq Require Import List ZArith Lia Permutation.
From Verif Require Import Prelude Res Algebra Tensor TensorFacts ListFacts Ncon BlockSparse Backends BackendFacts
  Mps MpsSpec MpsState MpsMeasureSpec MpsDouble.
Import ListNotations.
Set Implicit Arguments.
Unset Strict Implicit.
Local Open Scope nat_scope.
Local Open Scope csr_scope.

Section Env.
  Context {R : cjr}.
  Add Ring Rring : (rsr R).
  Notation tensor := (Tensor.tensor R).
  Notation op := (nat -> nat -> R).

  Lemma con_ok (a b : tensor) ax bx : gather 0 (shape a) ax = gather 0 (shape b) bx -> con a b ax bx = Ok (tensordot a b ax bx).
  Proof. intros H. unfold con, guard. rewrite (proj2 (list_eqb_spec _ _) H). reflexivity. Qed.

  Ltac td := intros; match goal with x := _ |- _ => subst x end; unfold tensordot, rank; repeat match goal with H : shape _ = _ |- _ => rewrite H; clear H end;
    split; [reflexivity|]; intros; cbn -[lsum nsum]; unfold nsum; rewrite ?lsum_flat_map; apply lsum_ext; intros; rewrite ?lsum_map.
  Lemma td_env_l (e a : tensor) l m d k : shape e = [l; m] -> shape a = [l; d; k] ->
    let x := tensordot e a [0] [0] in shape x = [m; d; k] /\
    forall c' u f, elt x [c'; u; f] = nsum l (fun c => elt e [c; c'] *! elt a [c; u; f]).
  Proof. td. cbn. ring. Qed.
  Lemma td_env_r (e a : tensor) l m d k : shape e = [k; m] -> shape a = [l; d; k] ->
    let x := tensordot e a [0] [2] in shape x = [m; l; d] /\
    forall f' c u, elt x [f'; c; u] = nsum k (fun f => elt e [f; f'] *! elt a [c; u; f]).
  Proof. td. cbn. ring. Qed.
  (** [x[c', u, f]] with the conjugate [a[c', u, f']] *)
  Lemma td_close_l (x a : tensor) l d k k' : shape x = [l; d; k] -> shape a = [l; d; k'] ->
    let y := tensordot x a [0; 1] [0; 1] in shape y = [k; k'] /\
    forall f f', elt y [f; f'] = nsum l (fun c => nsum d (fun u => elt x [c; u; f] *! elt a [c; u; f'])).
  Proof. td. rewrite lsum_flat_map. unfold nsum. apply lsum_ext. intros u _. cbn. ring. Qed.
  Lemma td_close_r (x a : tensor) l l' d k : shape x = [k; l; d] -> shape a = [l'; d; k] ->
    let y := tensordot x a [0; 2] [2; 1] in shape y = [l; l'] /\
    forall c c', elt y [c; c'] = nsum k (fun f => nsum d (fun u => elt x [f; c; u] *! elt a [c'; u; f])).
  Proof. td. rewrite lsum_flat_map. unfold nsum. apply lsum_ext. intros u _. cbn. ring. Qed.
  Lemma td_first_l (x a : tensor) l d k k' : shape x = [l; d; k] -> shape a = [l; d; k'] ->
    let y := tensordot x a [2; 1] [2; 1] in k = k' -> shape y = [l; l] /\
    forall c c', elt y [c; c'] = nsum k (fun f => nsum d (fun u => elt x [c; u; f] *! elt a [c'; u; f])).
  Proof. td. rewrite lsum_flat_map. unfold nsum. apply lsum_ext. intros u _. cbn. ring. Qed.
  (** with an operator *)
  Lemma td_op_l (x o : tensor) l d d' k : shape x = [l; d; k] -> shape o = [d'; d] ->
    let y := tensordot x o [1] [1] in shape y = [l; k; d'] /\
    forall c f v, elt y [c; f; v] = nsum d (fun u => elt x [c; u; f] *! elt o [v; u]).
  Proof. td. cbn. ring. Qed.
  Lemma td_op_r (x o : tensor) l d d' k : shape x = [k; l; d] -> shape o = [d'; d] ->
    let y := tensordot x o [2] [1] in shape y = [k; l; d'] /\
    forall f c v, elt y [f; c; v] = nsum d (fun u => elt x [f; c; u] *! elt o [v; u]).
  Proof. td. cbn. ring. Qed.
  Lemma td_opclose_l (x a : tensor) l d k k' : shape x = [l; k; d] -> shape a = [l; d; k'] ->
    let y := tensordot x a [0; 2] [0; 1] in shape y = [k; k'] /\
    forall f f', elt y [f; f'] = nsum l (fun c => nsum d (fun u => elt x [c; f; u] *! elt a [c; u; f'])).
  Proof. td. rewrite lsum_flat_map. unfold nsum. apply lsum_ext. intros u _. cbn. ring. Qed.
  Lemma td_full (x y : tensor) l m : shape x = [l; m] -> shape y = [l; m] ->
    let z := tensordot x y [0; 1] [0; 1] in shape z = [] /\
    elt z [] = nsum l (fun c => nsum m (fun c' => elt x [c; c'] *! elt y [c; c'])).
  Proof. td. rewrite lsum_flat_map. unfold nsum. apply lsum_ext. intros u _. cbn. ring. Qed.

  Lemma conj_shape (a : tensor) : shape (conj_t a) = shape a. Proof. reflexivity. Qed.
  Lemma conj_elt (a : tensor) ix : elt (conj_t a) ix = cj (elt a ix). Proof. reflexivity. Qed.

  (** the matrix [e] is [f] *)
  Definition is_mat (k : nat) (e : tensor) (f : nat -> nat -> R) : Prop := shape e = [k; k] /\ forall i j, i < k -> j < k -> elt e [i; j] = f i j.
  Definition push (l : nat) (f : nat -> nat -> R) (o : op) (a : tensor) (i j : nat) : R :=
    nsum l (fun c => nsum l (fun c' => f c c' *! tstep o a c c' i j)).
  Definition pull (k : nat) (f : nat -> nat -> R) (o : op) (a : tensor) (i j : nat) : R :=
    nsum k (fun c => nsum k (fun c' => tstep o a i j c c' *! f c c')).

  Lemma push_swap l f o a i j : push l f o a i j = nsum l (fun c' => nsum l (fun c => f c c' *! tstep o a c c' i j)).
  Proof. apply nsum_swap. Qed.
  Lemma pull_swap k f o a i j : pull k f o a i j = nsum k (fun c' => nsum k (fun c => tstep o a i j c c' *! f c c')).
  Proof. apply nsum_swap. Qed.

  Lemma step_left (e a : tensor) f l d k : is_mat l e f -> shape a = [l; d; k] ->
    exists x y, con e a [0] [0] = Ok x /\ con x (conj_t a) [0; 1] [0; 1] = Ok y /\ is_mat k y (push l f ident a).
  Proof.
    intros [Se Ee] Sa. destruct (td_env_l Se Sa) as [Sx Ex]. destruct (@td_close_l _ (conj_t a) l d k k Sx Sa) as [Sy Ey].
    eexists. eexists. split; [apply con_ok; rewrite Se, Sa; reflexivity|]. split; [apply con_ok; rewrite Sx, conj_shape, Sa; reflexivity|].
    split; [exact Sy|]. intros i j Hi Hj. rewrite Ey. rewrite push_swap. apply nsum_ext. intros c' Hc'.
    transitivity (nsum d (fun u => nsum l (fun c => f c c' *! (elt a [c; u; i] *! cj (elt a [c'; u; j]))))).
    - apply nsum_ext. intros u Hu. rewrite Ex, conj_elt, <- nsum_mul_r. apply nsum_ext. intros c Hc. rewrite Ee by assumption. ring.
    - rewrite nsum_swap. apply nsum_ext. intros c Hc. rewrite (tstep_ident _ _ _ _ Sa), nsum_mul_l. reflexivity.
  Qed.
  Lemma step_right (e a : tensor) f l d k : is_mat k e f -> shape a = [l; d; k] ->
    exists x y, con e a [0] [2] = Ok x /\ con x (conj_t a) [0; 2] [2; 1] = Ok y /\ is_mat l y (pull k f ident a).
  Proof.
    intros [Se Ee] Sa. destruct (td_env_r Se Sa) as [Sx Ex]. destruct (@td_close_r _ (conj_t a) l l d k Sx Sa) as [Sy Ey].
    eexists. eexists. split; [apply con_ok; rewrite Se, Sa; reflexivity|]. split; [apply con_ok; rewrite Sx, conj_shape, Sa; reflexivity|].
    split; [exact Sy|]. intros i j Hi Hj. rewrite Ey. rewrite pull_swap. apply nsum_ext. intros c' Hc'.
    transitivity (nsum d (fun u => nsum k (fun c => f c c' *! (elt a [i; u; c] *! cj (elt a [j; u; c']))))).
    - apply nsum_ext. intros u Hu. rewrite Ex, conj_elt, <- nsum_mul_r. apply nsum_ext. intros c Hc. rewrite Ee by assumption. ring.
    - rewrite nsum_swap. apply nsum_ext. intros c Hc. rewrite (tstep_ident _ _ _ _ Sa), nsum_mul_l. ring.
  Qed.
  Lemma step_first_l (a : tensor) l d k : shape a = [l; d; k] ->
    exists y, con a (conj_t a) [0; 1] [0; 1] = Ok y /\ is_mat k y (push l ident ident a).
  Proof.
    intros Sa. destruct (@td_close_l a (conj_t a) l d k k Sa Sa) as [Sy Ey]. eexists. split; [apply con_ok; rewrite conj_shape, Sa; reflexivity|].
    split; [exact Sy|]. intros i j Hi Hj. rewrite Ey. unfold push. apply nsum_ext. intros c Hc. unfold ident at 1.
    rewrite (nsum_delta_l (fun c' => tstep ident a c c' i j) Hc), (tstep_ident _ _ _ _ Sa). reflexivity.
  Qed.
  Lemma step_first_r (a : tensor) l d k : shape a = [l; d; k] ->
    exists y, con a (conj_t a) [2; 1] [2; 1] = Ok y /\ is_mat l y (pull k ident ident a).
  Proof.
    intros Sa. destruct (@td_first_l a (conj_t a) l d k k Sa Sa eq_refl) as [Sy Ey]. eexists. split; [apply con_ok; rewrite conj_shape, Sa; reflexivity|].
    split; [exact Sy|]. intros i j Hi Hj. rewrite Ey. unfold pull. apply nsum_ext. intros c Hc.
    symmetry. transitivity (nsum k (fun c' => (if c =? c' then r1 else r0) *! tstep ident a i j c c')).
    - apply nsum_ext. intros c' _. fold (ident (R := R) c c'). ring.
    - rewrite (nsum_delta_l (fun c' => tstep ident a i j c c') Hc), (tstep_ident _ _ _ _ Sa). reflexivity.
  Qed.

  Lemma absorb_left_spec (e a o : tensor) f l d k : is_mat l e f -> shape a = [l; d; k] -> shape o = [d; d] ->
    exists y, absorb_left e a o = Ok y /\ is_mat k y (push l f (mat o) a).
  Proof.
    intros [Se Ee] Sa So. destruct (td_env_l Se Sa) as [Sx Ex]. destruct (td_op_l Sx So) as [Sz Ez]. destruct (@td_opclose_l _ (conj_t a) l d k k Sz Sa) as [Sy Ey].
    eexists. split.
    { unfold absorb_left. rewrite con_ok by (rewrite Se, Sa; reflexivity). cbn [rbind]. rewrite con_ok by (rewrite Sx, So; reflexivity). cbn [rbind].
      rewrite con_ok by (rewrite Sz, conj_shape, Sa; reflexivity). reflexivity. }
    split; [exact Sy|]. intros i j Hi Hj. rewrite Ey. rewrite push_swap. apply nsum_ext. intros c' Hc'.
    transitivity (nsum d (fun v => nsum d (fun u => nsum l (fun c => f c c' *! (mat o v u *! (elt a [c; u; i] *! cj (elt a [c'; v; j]))))))).
    - apply nsum_ext. intros v Hv. rewrite Ez, conj_elt, <- nsum_mul_r. apply nsum_ext. intros u Hu. rewrite Ex, <- !nsum_mul_r.
      apply nsum_ext. intros c Hc. rewrite Ee by assumption. unfold mat. ring.
    - symmetry. transitivity (nsum l (fun c => nsum d (fun u => nsum d (fun v => f c c' *! (mat o v u *! (elt a [c; u; i] *! cj (elt a [c'; v; j]))))))).
      + apply nsum_ext. intros c Hc. unfold tstep. rewrite Sa. cbn [nth]. rewrite <- nsum_mul_l. apply nsum_ext. intros u Hu. rewrite <- nsum_mul_l. reflexivity.
      + unfold nsum. rewrite lsum_swap12. apply lsum_swap.
  Qed.
  Lemma absorb_right_spec (e a o : tensor) f l d k : is_mat k e f -> shape a = [l; d; k] -> shape o = [d; d] ->
    exists y, absorb_right e a o = Ok y /\ is_mat l y (pull k f (mat o) a).
  Proof.
    intros [Se Ee] Sa So. destruct (td_env_r Se Sa) as [Sx Ex]. destruct (td_op_r Sx So) as [Sz Ez]. destruct (@td_close_r _ (conj_t a) l l d k Sz Sa) as [Sy Ey].
    eexists. split.
    { unfold absorb_right. rewrite con_ok by (rewrite Se, Sa; reflexivity). cbn [rbind]. rewrite con_ok by (rewrite Sx, So; reflexivity). cbn [rbind].
      rewrite con_ok by (rewrite Sz, conj_shape, Sa; reflexivity). reflexivity. }
    split; [exact Sy|]. intros i j Hi Hj. rewrite Ey. rewrite pull_swap. apply nsum_ext. intros c' Hc'.
    transitivity (nsum d (fun v => nsum d (fun u => nsum k (fun c => mat o v u *! (elt a [i; u; c] *! cj (elt a [j; v; c'])) *! f c c')))).
    - apply nsum_ext. intros v Hv. rewrite Ez, conj_elt, <- nsum_mul_r. apply nsum_ext. intros u Hu. rewrite Ex, <- !nsum_mul_r.
      apply nsum_ext. intros c Hc. rewrite Ee by assumption. unfold mat. ring.
    - symmetry. transitivity (nsum k (fun c => nsum d (fun u => nsum d (fun v => mat o v u *! (elt a [i; u; c] *! cj (elt a [j; v; c'])) *! f c c')))).
      + apply nsum_ext. intros c Hc. unfold tstep. rewrite Sa. cbn [nth]. rewrite <- nsum_mul_r. apply nsum_ext. intros u Hu. rewrite <- nsum_mul_r. reflexivity.
      + unfold nsum. rewrite lsum_swap12. apply lsum_swap.
  Qed.
  Lemma sandwich_spec (e a o r : tensor) f g l d k : is_mat l e f -> is_mat k r g -> shape a = [l; d; k] -> shape o = [d; d] ->
    sandwich e a o r = Ok (nsum k (fun c => nsum k (fun c' => push l f (mat o) a c c' *! g c c'))).
  Proof.
    intros He [Sr Er] Sa So. destruct (absorb_left_spec He Sa So) as (y & Y & Sy & Ey). unfold sandwich. rewrite Y. cbn [rbind].
    destruct (td_full Sy Sr) as [_ Z]. rewrite con_ok by (rewrite Sy, Sr; reflexivity). cbn [rbind]. rewrite Z. f_equal.
    apply nsum_ext. intros c Hc. apply nsum_ext. intros c' Hc'. rewrite Ey, Er by assumption. reflexivity.
  Qed.

  (** ** the environments *)
  Definition good_l l (p : list tensor) (e : tensor) : Prop := exists k, chain l p k /\ is_mat k e (left_part l p).
  Definition good_r r (q : list tensor) (e : tensor) : Prop := exists k, chain k q r /\ is_mat k e (right_part r q).

  Lemma is_mat_ext k e f g : (forall i j, i < k -> j < k -> f i j = g i j) -> is_mat k e f -> is_mat k e g.
  Proof. intros H [S E]. split; [exact S|]. intros i j Hi Hj. rewrite <- H by assumption. apply E; assumption. Qed.
  Lemma push_left_part l p (t : tensor) m d k : chain l p m -> shape t = [m; d; k] ->
    forall i j, i < k -> j < k -> push m (left_part l p) ident t i j = left_part l (p ++ [t]) i j.
  Proof. intros C S i j Hi Hj. rewrite (left_part_snoc C S Hi Hj). reflexivity. Qed.
  Lemma pull_right_part r q (t : tensor) l d k : shape t = [l; d; k] ->
    forall i j, pull k (right_part r q) ident t i j = right_part r (t :: q) i j.
  Proof. intros S i j. rewrite (right_part_cons _ _ _ _ S). reflexivity. Qed.

  Lemma chain_det l (p : list tensor) : forall m m' , chain l p m -> chain l p m' -> m = m'.
  Proof.
    revert l. induction p as [|t p IH]; intros l m m' C C'; [cbn in *; congruence|].
    destruct C as (d & k & S & C). destruct C' as (d' & k' & S' & C'). apply (IH k m m' C). congruence.
  Qed.
  Lemma chain_det_l r (p : list tensor) : forall m m' , chain m p r -> chain m' p r -> m = m'.
  Proof.
    destruct p as [|t p]; intros m m' C C'; [cbn in *; congruence|].
    destruct C as (d & k & S & C). destruct C' as (d' & k' & S' & C'). congruence.
  Qed.
  Lemma good_l_next l (p : list tensor) e t m d k : chain l p m -> shape t = [m; d; k] -> good_l l p e ->
    exists x y, con e t [0] [0] = Ok x /\ con x (conj_t t) [0; 1] [0; 1] = Ok y /\ good_l l (p ++ [t]) y.
  Proof.
    intros C S (m' & C' & M). assert (m' = m) as -> by (eapply chain_det; eassumption).
    destruct (step_left M S) as (x & y & X & Y & M'). exists x, y. split; [exact X|]. split; [exact Y|]. exists k. split.
    - apply chain_app. exists m. split; [exact C|]. exists d, k. split; [exact S | reflexivity].
    - eapply is_mat_ext; [|exact M']. intros i j Hi Hj. apply (push_left_part C S Hi Hj).
  Qed.
  Lemma good_r_next r (q : list tensor) e t l d k : chain k q r -> shape t = [l; d; k] -> good_r r q e ->
    exists x y, con e t [0] [2] = Ok x /\ con x (conj_t t) [0; 2] [2; 1] = Ok y /\ good_r r (t :: q) y.
  Proof.
    intros C S (k' & C' & M). assert (k' = k) as -> by (eapply chain_det_l; eassumption).
    destruct (step_right M S) as (x & y & X & Y & M'). exists x, y. split; [exact X|]. split; [exact Y|]. exists l. split.
    - exists d, k. split; assumption.
    - eapply is_mat_ext; [|exact M']. intros i j Hi Hj. apply (pull_right_part _ _ S).
  Qed.

  Lemma firstn_snoc A (ts : list A) n t : nth_error ts n = Some t -> firstn (n + 1) ts = firstn n ts ++ [t].
  Proof.
    revert n. induction ts as [|x ts IH]; intros n H; [destruct n; discriminate|]. destruct n; cbn in *; [congruence|].
    f_equal. apply IH. exact H.
  Qed.
  Lemma skipn_cons A (ts : list A) n t : nth_error ts n = Some t -> skipn n ts = t :: skipn (n + 1) ts.
  Proof.
    revert n. induction ts as [|x ts IH]; intros n H; [destruct n; discriminate|]. destruct n; cbn in *; [congruence|]. apply IH. exact H.
  Qed.
  Lemma nth_error_firstn A (ts : list A) : forall c i, i < c -> nth_error (firstn c ts) i = nth_error ts i.
  Proof.
    induction ts as [|x ts IH]; intros c i H; [rewrite firstn_nil; reflexivity|]. destruct c; [lia|]. destruct i; [reflexivity|]. cbn. apply IH. lia.
  Qed.
  Lemma nth_error_skipn A (ts : list A) : forall c i, nth_error (skipn c ts) i = nth_error ts (c + i).
  Proof. induction ts as [|x ts IH]; intros c i; [rewrite skipn_nil; destruct i, c; reflexivity|]. destruct c; [reflexivity|]. cbn. apply IH. Qed.
  Lemma skipn_skipn' A (ts : list A) : forall a b, skipn b (skipn a ts) = skipn (a + b) ts.
  Proof. induction ts as [|x ts IH]; intros a b; [rewrite !skipn_nil; reflexivity|]. destruct a; [reflexivity|]. cbn. apply IH. Qed.
  Lemma skipn_incl A (ts : list A) n x : In x (skipn n ts) -> In x ts.
  Proof. intros H. rewrite <- (firstn_skipn n ts). apply in_or_app. right. exact H. Qed.
  Lemma chain_cut l (ts : list tensor) r n t : chain l ts r -> nth_error ts n = Some t ->
    exists m d k, chain l (firstn n ts) m /\ shape t = [m; d; k] /\ chain k (skipn (n + 1) ts) r.
  Proof.
    intros C H. rewrite <- (firstn_skipn n ts), (skipn_cons H) in C. apply chain_app in C. destruct C as (m & C1 & (d & k & S & C2)).
    exists m, d, k. auto.
  Qed.

  Section Chain.
    Variables (l r : nat) (ts : list tensor).
    Hypothesis C : chain l ts r.
    Notation N := (length ts).

    Lemma get_ok n : n < N -> exists t, get ts n = Ok t /\ nth_error ts n = Some t.
    Proof. intros H. unfold get. destruct (nth_error ts n) as [t|] eqn:E; [eauto | apply nth_error_None in E; lia]. Qed.

    Lemma left_loop_spec sites j : forall n env d, n + j <= N -> good_l l (firstn n ts) env ->
      exists d', left_loop ts sites env (seq n j) d = Ok d' /\
      forall s, (n < s <= n + j -> zin (Z.of_nat s) sites = true -> exists e, dget d' s = Ok e /\ good_l l (firstn s ts) e) /\
                (~ (n < s <= n + j /\ zin (Z.of_nat s) sites = true) -> dget d' s = dget d s).
    Proof.
      induction j as [|j IH]; intros n env d Hn G.
      - exists d. split; [reflexivity|]. intros s. split; [intros; lia | reflexivity].
      - destruct (@get_ok n ltac:(lia)) as (t & Gt & Et). destruct (chain_cut C Et) as (m & dd & k & C1 & St & _).
        destruct (good_l_next C1 St G) as (x & y & X & Y & G'). rewrite <- (firstn_snoc Et) in G'.
        cbn [seq left_loop]. rewrite Gt. cbn [rbind]. rewrite X. cbn [rbind]. rewrite Y. cbn [rbind].
        replace (S n) with (n + 1) by lia. replace (Z.of_nat n + 1)%Z with (Z.of_nat (n + 1)) by lia.
        set (d1 := if zin (Z.of_nat (n + 1)) sites then (n + 1, y) :: d else d).
        destruct (IH (n + 1) y d1 ltac:(lia) G') as (d' & D & H). exists d'. split; [exact D|]. intros s. destruct (H s) as [H1 H2]. split.
        + intros Hs Z. destruct (Nat.eq_dec s (n + 1)) as [->|Ne]; [|apply H1; [lia | exact Z]].
          exists y. split; [|exact G']. rewrite H2 by lia. unfold d1, dget. rewrite Z. cbn. rewrite Nat.eqb_refl. reflexivity.
        + intros Ns. rewrite H2 by (intros [A B]; apply Ns; split; [lia | exact B]). unfold d1.
          destruct (zin (Z.of_nat (n + 1)) sites) eqn:Z; [|reflexivity]. unfold dget. cbn [find fst].
          destruct (Nat.eqb_spec (n + 1) s) as [<-|Ne]; [|reflexivity]. contradiction Ns. split; [lia | exact Z].
    Qed.
    Lemma rev_seq_S a k : rev (seq a (S k)) = (a + k) :: rev (seq a k).
    Proof. rewrite seq_S, rev_app_distr. reflexivity. Qed.
    Lemma right_loop_spec sites j : forall a env d, a + j <= N -> good_r r (skipn (a + j) ts) env ->
      exists d', right_loop ts sites env (rev (seq a j)) d = Ok d' /\
      forall s, (a <= s < a + j -> zin (Z.of_nat s - 1) sites = true -> exists e, dget d' s = Ok e /\ good_r r (skipn s ts) e) /\
                (~ (a <= s < a + j /\ zin (Z.of_nat s - 1) sites = true) -> dget d' s = dget d s).
    Proof.
      induction j as [|j IH]; intros a env d Hn G.
      - exists d. split; [reflexivity|]. intros s. split; [intros; lia | reflexivity].
      - destruct (@get_ok (a + j) ltac:(lia)) as (t & Gt & Et). destruct (chain_cut C Et) as (m & dd & k & _ & St & C2).
        replace (a + S j) with (a + j + 1) in G by lia.
        destruct (good_r_next C2 St G) as (x & y & X & Y & G'). rewrite <- (skipn_cons Et) in G'.
        rewrite rev_seq_S. cbn [right_loop]. rewrite Gt. cbn [rbind]. rewrite X. cbn [rbind]. rewrite Y. cbn [rbind].
        set (d1 := if zin (Z.of_nat (a + j) - 1) sites then (a + j, y) :: d else d).
        destruct (IH a y d1 ltac:(lia) G') as (d' & D & H). exists d'. split; [exact D|]. intros s. destruct (H s) as [H1 H2]. split.
        + intros Hs Z. destruct (Nat.eq_dec s (a + j)) as [->|Ne]; [|apply H1; [lia | exact Z]].
          exists y. split; [|exact G']. rewrite H2 by lia. unfold d1, dget. rewrite Z. cbn. rewrite Nat.eqb_refl. reflexivity.
        + intros Ns. rewrite H2 by (intros [A B]; apply Ns; split; [lia | exact B]). unfold d1.
          destruct (zin (Z.of_nat (a + j) - 1) sites) eqn:Z; [|reflexivity]. unfold dget. cbn [find fst].
          destruct (Nat.eqb_spec (a + j) s) as [<-|Ne]; [|reflexivity]. contradiction Ns. split; [lia | exact Z].
    Qed.

    (** a dictionary made of a list of keys *)
    Lemma dict_list (key : Z -> nat) (mk : Z -> res (nat * tensor)) (P : nat -> tensor -> Prop) (sites : list Z) :
      (forall s, In s sites -> exists e, mk s = Ok (key s, e) /\ P (key s) e) ->
      exists d, mapr mk sites = Ok d /\
      forall k, ((exists s, In s sites /\ key s = k) -> exists e, dget d k = Ok e /\ P k e) /\
                (~ (exists s, In s sites /\ key s = k) -> dget d k = Raise).
    Proof.
      induction sites as [|s sites IH]; intros H.
      - exists []. split; [reflexivity|]. intros k. split; [intros (s & [] & _) | reflexivity].
      - destruct (H s ltac:(left; reflexivity)) as (e & E & Pe). destruct IH as (d & D & Hd); [intros; apply H; right; assumption|].
        exists ((key s, e) :: d). split; [cbn [mapr]; rewrite E; cbn [rbind]; rewrite D; reflexivity|]. intros k. destruct (Hd k) as [H1 H2].
        unfold dget in *. cbn [find fst]. destruct (Nat.eqb_spec (key s) k) as [<-|Ne]; split.
        + intros _. exists e. auto.
        + intros N. contradiction N. exists s. split; [left|]; reflexivity.
        + intros (s' & [<-|I] & K); [contradiction|]. apply H1. exists s'. auto.
        + intros N. apply H2. intros (s' & I & K). apply N. exists s'. split; [right|]; assumption.
    Qed.
  End Chain.

  Lemma zmax_spec sr : forall s0, (forall s, In s (s0 :: sr) -> s <= zmax sr s0)%Z /\ In (zmax sr s0) (s0 :: sr).
  Proof.
    unfold zmax. induction sr as [|s sr IH]; intros s0; cbn [fold_left].
    - split; [intros s [<-|[]]; lia | left; reflexivity].
    - destruct (IH (Z.max s0 s)) as [H1 H2]. split.
      + pose proof (H1 _ (or_introl eq_refl)). intros x [<-|[<-|I]]; [lia | lia |]. apply H1. right. exact I.
      + destruct H2 as [H2|H2]; [|right; right; exact H2]. rewrite <- H2. destruct (Z.max_spec s0 s) as [[_ ->]|[_ ->]]; [right; left | left]; reflexivity.
  Qed.
  Lemma zmin_spec sr : forall s0, (forall s, In s (s0 :: sr) -> zmin sr s0 <= s)%Z /\ In (zmin sr s0) (s0 :: sr).
  Proof.
    unfold zmin. induction sr as [|s sr IH]; intros s0; cbn [fold_left].
    - split; [intros s [<-|[]]; lia | left; reflexivity].
    - destruct (IH (Z.min s0 s)) as [H1 H2]. split.
      + pose proof (H1 _ (or_introl eq_refl)). intros x [<-|[<-|I]]; [lia | lia |]. apply H1. right. exact I.
      + destruct H2 as [H2|H2]; [|right; right; exact H2]. rewrite <- H2. destruct (Z.min_spec s0 s) as [[_ ->]|[_ ->]]; [left | right; left]; reflexivity.
  Qed.
  Lemma zin_spec z l : zin z l = true <-> In z l.
  Proof.
    unfold zin. rewrite existsb_exists. split; [intros (x & H & E); apply Z.eqb_eq in E; congruence | intros H; exists z; split; [exact H | apply Z.eqb_refl]].
  Qed.

  (** ** left_envs *)
  Lemma left_envs_spec l r (m : mps R) sites : chain l (tens m) r -> tens m <> [] ->
    (forall c, centre m = Some c -> c < length (tens m) /\ canonical (tens m) c) ->
    (forall s, In s sites -> (0 <= s <= Z.of_nat (length (tens m)))%Z) ->
    exists d, left_envs m sites = Ok d /\
    forall k, (In (Z.of_nat k) sites -> exists e, dget d k = Ok e /\ good_l l (firstn k (tens m)) e) /\ (~ In (Z.of_nat k) sites -> dget d k = Raise).
  Proof.
    intros C Ne Hc Hs. unfold left_envs. destruct sites as [|s0 sr]. { exists []. split; [reflexivity|]. intros k. split; [intros [] | reflexivity]. }
    set (ts := tens m) in *. set (c := match centre m with Some c => c | None => 0 end).
    assert (c < length ts) as Lc. { unfold c. destruct (centre m) as [c0|]; [apply Hc; reflexivity|]. destruct ts; [contradiction Ne; reflexivity | cbn; lia]. }
    assert (forall t, In t (firstn c ts) -> left_iso t) as Iso.
    { intros t It. apply In_nth_error in It. destruct It as (i & Hi). assert (i < c) as Lt.
      { assert (i < length (firstn c ts)) by (apply nth_error_Some; congruence). rewrite firstn_length in *. lia. }
      rewrite nth_error_firstn in Hi by exact Lt. unfold c in *. destruct (centre m) as [c0|]; [|lia]. apply (proj2 (Hc c0 eq_refl) i t Hi). exact Lt. }
    clearbody c. set (sites := s0 :: sr) in *. destruct (zmax_spec sr s0) as [M1 M2]. fold sites in M1, M2. set (n2 := zmax sr s0) in *. clearbody n2.
    unfold guard. rewrite (proj2 (forallb_forall _ _)) by (intros s I; apply Z.leb_le; apply Hs; exact I).
    rewrite (proj2 (forallb_forall _ _)) by (intros s I; apply Z.leb_le; apply Hs; exact I).
    destruct (@dict_list Z.to_nat (fun s => rbind (get ts (Z.to_nat s)) (fun t => Ok (Z.to_nat s, eye (nth 0 (shape t) 0)))) (fun k e => good_l l (firstn k ts) e)
      (filter (fun s => (s <=? Z.of_nat c)%Z) sites)) as (d & D & Hd).
    { intros s I. apply filter_In in I. destruct I as [I Le]. apply Z.leb_le in Le. pose proof (Hs s I).
      destruct (@get_ok ts (Z.to_nat s) ltac:(lia)) as (t & Gt & Et). destruct (chain_cut C Et) as (k & dd & k' & C1 & St & _).
      rewrite Gt. cbn [rbind]. eexists. split; [reflexivity|]. exists k. split; [exact C1|]. rewrite St. cbn [nth]. split; [reflexivity|].
      intros i j Hi Hj. rewrite (left_part_iso C1); [reflexivity| | assumption..]. intros u Iu. apply Iso.
      replace (firstn c ts) with (firstn (Z.to_nat s) ts ++ firstn (c - Z.to_nat s) (skipn (Z.to_nat s) ts)); [apply in_or_app; left; exact Iu|].
      rewrite <- (firstn_skipn (Z.to_nat s) ts) at 3. rewrite firstn_app, firstn_firstn, Nat.min_r by lia. rewrite firstn_length, Nat.min_l by lia. reflexivity. }
    rewrite D. cbn [rbind].
    assert (forall k, In (Z.of_nat k) sites -> k <= c -> exists e, dget d k = Ok e /\ good_l l (firstn k ts) e) as Hd1.
    { intros k I Le. apply Hd. exists (Z.of_nat k). split; [|lia]. apply filter_In. split; [exact I | apply Z.leb_le; lia]. }
    assert (forall k, ~ (In (Z.of_nat k) sites /\ k <= c) -> dget d k = Raise) as Hd2.
    { intros k Nk. apply Hd. intros (s & I & E). apply filter_In in I. destruct I as [I Le]. apply Z.leb_le in Le. pose proof (Hs s I).
      apply Nk. replace (Z.of_nat k) with s by lia. split; [exact I | lia]. }
    destruct (Z.of_nat c <? n2)%Z eqn:Ec.
    - apply Z.ltb_lt in Ec. pose proof (Hs n2 M2). destruct (@get_ok ts c Lc) as (t & Gt & Et). rewrite Gt. cbn [rbind].
      destruct (chain_cut C Et) as (k0 & dd & k1 & C1 & St & C2). destruct (step_first_l St) as (y & Y & My). rewrite Y. cbn [rbind].
      assert (good_l l (firstn (c + 1) ts) y) as Gy.
      { rewrite (firstn_snoc Et). exists k1. split; [apply chain_app; exists k0; split; [exact C1 | exists dd, k1; split; [exact St | reflexivity]]|].
        eapply is_mat_ext; [|exact My]. intros i j Hi Hj. rewrite (left_part_snoc C1 St Hi Hj). unfold push. apply nsum_ext. intros a Ha. apply nsum_ext. intros a' Ha'.
        rewrite (left_part_iso C1 Iso Ha Ha'). reflexivity. }
      replace (Z.of_nat c + 1)%Z with (Z.of_nat (c + 1)) by lia.
      set (d1 := if zin (Z.of_nat (c + 1)) sites then (c + 1, y) :: d else d).
      destruct (@left_loop_spec l r ts C sites (Z.to_nat n2 - (c + 1)) (c + 1) y d1 ltac:(lia) Gy) as (d' & D' & H').
      exists d'. split; [exact D'|]. intros k. destruct (H' k) as [H1 H2].
      assert (k <> c + 1 -> dget d1 k = dget d k) as Hd3.
      { intros Nk. unfold d1. destruct (zin (Z.of_nat (c + 1)) sites); [|reflexivity]. unfold dget. cbn [find fst].
        rewrite (proj2 (Nat.eqb_neq (c + 1) k)) by auto. reflexivity. }
      split.
      + intros I. pose proof (proj2 (zin_spec _ _) I) as Z. pose proof (M1 _ I). destruct (Nat.lt_trichotomy k (c + 1)) as [Lt|[->|Gt']].
        * rewrite H2 by lia. rewrite Hd3 by lia. apply Hd1; [exact I | lia].
        * exists y. split; [|exact Gy]. rewrite H2 by lia. unfold d1, dget. rewrite Z. cbn. rewrite Nat.eqb_refl. reflexivity.
        * apply H1; [lia | exact Z].
      + intros Nk. rewrite H2 by (rewrite zin_spec; intros [_ A]; auto). destruct (Nat.eq_dec k (c + 1)) as [->|Ne'].
        * unfold d1. destruct (zin (Z.of_nat (c + 1)) sites) eqn:Z; [apply zin_spec in Z; contradiction|]. apply Hd2. intros [A _]. auto.
        * rewrite Hd3 by exact Ne'. apply Hd2. intros [A _]. auto.
    - apply Z.ltb_ge in Ec. exists d. split; [reflexivity|]. intros k. split.
      + intros I. apply Hd1; [exact I|]. pose proof (M1 _ I). lia.
      + intros Nk. apply Hd2. intros [A _]. auto.
  Qed.

  (** ** right_envs: the key [k] stands for the site [k - 1] *)
  Lemma right_envs_spec l r (m : mps R) sites : chain l (tens m) r -> tens m <> [] ->
    (forall c, centre m = Some c -> c < length (tens m) /\ canonical (tens m) c) ->
    (forall s, In s sites -> (-1 <= s < Z.of_nat (length (tens m)))%Z) ->
    exists d, right_envs m sites = Ok d /\
    forall k, (In (Z.of_nat k - 1)%Z sites -> exists e, dget d k = Ok e /\ good_r r (skipn k (tens m)) e) /\ (~ In (Z.of_nat k - 1)%Z sites -> dget d k = Raise).
  Proof.
    intros C Ne Hc Hs. unfold right_envs. destruct sites as [|s0 sr]. { exists []. split; [reflexivity|]. intros k. split; [intros [] | reflexivity]. }
    set (ts := tens m) in *. set (c := match centre m with Some c => c | None => length ts - 1 end).
    assert (c < length ts) as Lc. { unfold c. destruct (centre m) as [c0|]; [apply Hc; reflexivity|]. destruct ts; [contradiction Ne; reflexivity | cbn; lia]. }
    assert (forall t, In t (skipn (c + 1) ts) -> right_iso t) as Iso.
    { intros t It. apply In_nth_error in It. destruct It as (i & Hi). rewrite nth_error_skipn in Hi.
      assert (c + 1 + i < length ts) by (apply nth_error_Some; congruence).
      unfold c in *. destruct (centre m) as [c0|]; [|lia]. apply (proj2 (Hc c0 eq_refl) (c0 + 1 + i) t Hi). lia. }
    clearbody c. set (sites := s0 :: sr) in *. destruct (zmin_spec sr s0) as [M1 M2]. fold sites in M1, M2. set (n1 := zmin sr s0) in *. clearbody n1.
    unfold guard. rewrite (proj2 (forallb_forall _ _)) by (intros s I; apply Z.ltb_lt; apply Hs; exact I).
    rewrite (proj2 (forallb_forall _ _)) by (intros s I; apply Z.leb_le; apply Hs; exact I).
    destruct (@dict_list (fun s => Z.to_nat s + 1) (fun s => rbind (get ts (Z.to_nat s)) (fun t => Ok (Z.to_nat s + 1, eye (nth 2 (shape t) 0)))) (fun k e => good_r r (skipn k ts) e)
      (filter (fun s => (Z.of_nat c <=? s)%Z) sites)) as (d & D & Hd).
    { intros s I. apply filter_In in I. destruct I as [I Le]. apply Z.leb_le in Le. pose proof (Hs s I).
      destruct (@get_ok ts (Z.to_nat s) ltac:(lia)) as (t & Gt & Et). destruct (chain_cut C Et) as (k' & dd & k & _ & St & C1).
      rewrite Gt. cbn [rbind]. eexists. split; [reflexivity|]. exists k. split; [exact C1|]. rewrite St. cbn [nth]. split; [reflexivity|].
      intros i j Hi Hj. rewrite (right_part_iso C1); [reflexivity| | assumption..]. intros u Iu. apply Iso.
      replace (Z.to_nat s + 1) with ((c + 1) + (Z.to_nat s - c)) in Iu by lia. rewrite <- skipn_skipn' in Iu. apply skipn_incl in Iu. exact Iu. }
    rewrite D. cbn [rbind].
    assert (forall k, In (Z.of_nat k - 1)%Z sites -> c < k -> exists e, dget d k = Ok e /\ good_r r (skipn k ts) e) as Hd1.
    { intros k I Le. apply Hd. exists (Z.of_nat k - 1)%Z. split; [|lia]. apply filter_In. split; [exact I | apply Z.leb_le; lia]. }
    assert (forall k, ~ (In (Z.of_nat k - 1)%Z sites /\ c < k) -> dget d k = Raise) as Hd2.
    { intros k Nk. apply Hd. intros (s & I & E). apply filter_In in I. destruct I as [I Le]. apply Z.leb_le in Le. pose proof (Hs s I).
      apply Nk. replace (Z.of_nat k - 1)%Z with s by lia. split; [exact I | lia]. }
    destruct (n1 <? Z.of_nat c)%Z eqn:Ec.
    - apply Z.ltb_lt in Ec. pose proof (Hs n1 M2). destruct (@get_ok ts c Lc) as (t & Gt & Et). rewrite Gt. cbn [rbind].
      destruct (chain_cut C Et) as (k0 & dd & k1 & C1 & St & C2). destruct (step_first_r St) as (y & Y & My). rewrite Y. cbn [rbind].
      assert (good_r r (skipn c ts) y) as Gy.
      { rewrite (skipn_cons Et). exists k0. split; [exists dd, k1; split; assumption|].
        eapply is_mat_ext; [|exact My]. intros i j Hi Hj. rewrite (right_part_cons _ _ _ _ St). unfold pull. apply nsum_ext. intros a Ha. apply nsum_ext. intros a' Ha'.
        rewrite (right_part_iso C2 Iso Ha Ha'). reflexivity. }
      set (d1 := if zin (Z.of_nat c - 1) sites then (c, y) :: d else d).
      set (a0 := Z.to_nat (n1 + 1)).
      destruct (@right_loop_spec l r ts C sites (c - a0) a0 y d1 ltac:(unfold a0; lia) ltac:(replace (a0 + (c - a0)) with c by (unfold a0; lia); exact Gy)) as (d' & D' & H').
      exists d'. split; [exact D'|]. intros k. destruct (H' k) as [H1 H2].
      assert (k <> c -> dget d1 k = dget d k) as Hd3.
      { intros Nk. unfold d1. destruct (zin (Z.of_nat c - 1) sites); [|reflexivity]. unfold dget. cbn [find fst].
        rewrite (proj2 (Nat.eqb_neq c k)) by auto. reflexivity. }
      split.
      + intros I. pose proof (proj2 (zin_spec _ _) I) as Z. pose proof (M1 _ I). destruct (Nat.lt_trichotomy k c) as [Lt|[->|Gt']].
        * apply H1; [unfold a0; lia | exact Z].
        * exists y. split; [|exact Gy]. rewrite H2 by (unfold a0; lia). unfold d1, dget. rewrite Z. cbn. rewrite Nat.eqb_refl. reflexivity.
        * rewrite H2 by (unfold a0; lia). rewrite Hd3 by lia. apply Hd1; [exact I | lia].
      + intros Nk. rewrite H2 by (rewrite zin_spec; intros [_ A]; auto). destruct (Nat.eq_dec k c) as [->|Ne'].
        * unfold d1. destruct (zin (Z.of_nat c - 1) sites) eqn:Z; [apply zin_spec in Z; contradiction|]. apply Hd2. intros [A _]. auto.
        * rewrite Hd3 by exact Ne'. apply Hd2. intros [A _]. auto.
    - apply Z.ltb_ge in Ec. exists d. split; [reflexivity|]. intros k. split.
      + intros I. apply Hd1; [exact I|]. pose proof (M1 _ I). lia.
      + intros Nk. apply Hd2. intros [A _]. auto.
  Qed.
End Env.
