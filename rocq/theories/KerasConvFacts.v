(** * KerasConvFacts: the contracted kernel *)
From Coq Require Import Ring.
From Verif Require Import Prelude Algebra Tensor TensorFacts Res Backends Keras KerasSpec KerasCall KerasFacts KerasConv KerasConvSpec ListFacts.
Set Implicit Arguments.
Unset Strict Implicit.

Lemma free_second n : free_axes (S (S n)) [1] = 0 :: seq 2 n.
Proof. unfold free_axes. cbn [seq filter mem existsb Nat.eqb orb negb]. f_equal. apply filter_all. intros x Hx. apply in_seq in Hx.
  unfold mem. cbn [existsb]. replace (x =? 1) with false by (symmetry; apply Nat.eqb_neq; lia). reflexivity. Qed.
Lemma free_penult n : free_axes (n + 2) [n] = seq 0 n ++ [S n].
Proof.
  unfold free_axes. rewrite seq_app, filter_app. f_equal.
  - apply filter_all. intros x Hx. apply in_seq in Hx. unfold mem. cbn [existsb]. replace (x =? n) with false by (symmetry; apply Nat.eqb_neq; lia). reflexivity.
  - cbn [plus seq filter]. unfold mem. cbn [existsb]. rewrite Nat.eqb_refl. replace (S n =? n) with false by (symmetry; apply Nat.eqb_neq; lia). reflexivity.
Qed.
Lemma mem_seq x a n : mem x (seq a n) = (a <=? x) && (x <? a + n).
Proof.
  unfold mem. apply Bool.eq_true_iff_eq. rewrite existsb_exists, Bool.andb_true_iff, Nat.leb_le, Nat.ltb_lt. split.
  - intros (y & Hy & E). apply Nat.eqb_eq in E as <-. apply in_seq in Hy. lia.
  - intros H. exists x. split; [apply in_seq; lia|apply Nat.eqb_refl].
Qed.
Lemma free_inner k m : free_axes (2 + k + m) (seq 2 k) = [0; 1] ++ seq (2 + k) m.
Proof.
  unfold free_axes. rewrite !seq_app, !filter_app. cbn [plus]. rewrite <- app_assoc. f_equal.
  - cbn [seq filter]. rewrite !mem_seq. reflexivity.
  - rewrite filter_none; [|intros x Hx; apply in_seq in Hx; rewrite mem_seq; apply Bool.negb_false_iff, Bool.andb_true_iff; split; [apply Nat.leb_le; lia|apply Nat.ltb_lt; lia]].
    apply filter_all. intros x Hx. apply in_seq in Hx. rewrite mem_seq. apply Bool.negb_true_iff, Bool.andb_false_iff. right. apply Nat.ltb_ge. lia.
Qed.

(** ** the axes of the chain in the order of [edges] *)
Fixpoint weave (js os : list nat) : list nat :=
  match js, os with
  | j :: js, o :: os => j :: o :: weave js os
  | _, _ => []
  end.
Lemma weave_length js : forall os, length os = length js -> length (weave js os) = 2 * length js.
Proof. induction js as [|j js IH]; intros [|o os] L; try discriminate; [reflexivity|]. cbn [weave length] in *. rewrite IH by lia. lia. Qed.
Lemma weave_even js : forall os n, length os = length js -> n < length js -> nth (2 * n) (weave js os) 0 = nth n js 0.
Proof.
  induction js as [|j js IH]; intros [|o os] n L Hn; try discriminate; [cbn in Hn; lia|]. destruct n as [|n]; [reflexivity|].
  replace (2 * S n) with (S (S (2 * n))) by lia. cbn [weave nth length] in *. apply IH; lia.
Qed.
Lemma weave_odd js : forall os n, length os = length js -> n < length js -> nth (2 * n + 1) (weave js os) 0 = nth n os 0.
Proof.
  induction js as [|j js IH]; intros [|o os] n L Hn; try discriminate; [cbn in Hn; lia|]. destruct n as [|n]; [reflexivity|].
  replace (2 * S n + 1) with (S (S (2 * n + 1))) by lia. cbn [weave nth length] in *. apply IH; lia.
Qed.
Lemma conv_edges_perm k : 2 <= k -> is_perm (2 * k + 2) (conv_edges k).
Proof.
  intros Hk. assert (length (conv_edges k) = 2 * k + 2) as L.
  { unfold conv_edges. rewrite !app_length. cbn [length]. rewrite !map_length, !seq_length. lia. }
  apply is_perm_intro; [exact L| |].
  - apply (@NoDup_incl_NoDup _ (seq 0 (2 * k + 2))); [apply seq_NoDup|rewrite seq_length; lia|].
    intros i Hi. apply in_seq in Hi. unfold conv_edges. apply in_or_app.
    destruct (Nat.eq_dec i 1) as [->|N1]; [left; left; reflexivity|]. destruct (Nat.eq_dec i (2 * k)) as [->|N2]; [left; right; left; reflexivity|].
    right. apply in_or_app. destruct (Nat.Even_or_Odd i) as [[j Ej]|[j Ej]].
    + destruct j as [|j]; [left; left; lia|]. right. apply in_or_app. left. apply in_map_iff. exists j. split; [lia|apply in_seq; lia].
    + destruct (Nat.eq_dec j k) as [->|N3]; [right; apply in_or_app; right; left; lia|]. left. right. apply in_map_iff. exists j. split; [lia|apply in_seq; lia].
  - intros i Hi. unfold conv_edges in Hi. apply in_app_or in Hi as [Hi|Hi].
    + destruct Hi as [<-|[<-|[]]]; lia.
    + apply in_app_or in Hi as [[<-|Hi]|Hi]; [lia| |apply in_app_or in Hi as [Hi|[<-|[]]]; [|lia]];
        apply in_map_iff in Hi as (j & <- & Hj); apply in_seq in Hj; lia.
Qed.
Lemma nth_weave_pos v h om js os jl x ol n : length os = length js ->
  let Y := [v; h; om] ++ weave js os ++ [jl; x; ol] in
  (n < length js -> nth (2 * n + 3) Y 0 = nth n js 0 /\ nth (2 * n + 4) Y 0 = nth n os 0) /\
  nth (2 * length js + 3) Y 0 = jl /\ nth (2 * length js + 4) Y 0 = x /\ nth (2 * length js + 5) Y 0 = ol.
Proof.
  intros L Y. pose proof (weave_length L) as LW. split.
  - intros Hn. unfold Y. split; rewrite app_nth2 by (cbn; lia); cbn [length]; rewrite app_nth1 by lia.
    + replace (2 * n + 3 - 3) with (2 * n) by lia. apply weave_even; assumption.
    + replace (2 * n + 4 - 3) with (2 * n + 1) by lia. apply weave_odd; assumption.
  - unfold Y. rewrite !app_nth2 with (l := [v; h; om]) by (cbn; lia). cbn [length]. rewrite !app_nth2 by lia. rewrite LW.
    replace (2 * length js + 3 - 3 - 2 * length js) with 0 by lia. replace (2 * length js + 4 - 3 - 2 * length js) with 1 by lia.
    replace (2 * length js + 5 - 3 - 2 * length js) with 2 by lia. repeat split.
Qed.
Lemma gather_edges v h om js os jl x ol : length os = length js ->
  gather 0 ([v; h; om] ++ weave js os ++ [jl; x; ol]) (conv_edges (length js + 2)) = [h; x] ++ (v :: js ++ [jl]) ++ (om :: os ++ [ol]).
Proof.
  intros L. pose proof (fun n => nth_weave_pos v h om jl x ol n L) as P. cbv zeta in P. set (Y := [v; h; om] ++ weave js os ++ [jl; x; ol]) in *.
  unfold conv_edges. rewrite !gather_app. f_equal; [|f_equal].
  - cbn [gather map]. f_equal. f_equal. replace (2 * (length js + 2)) with (2 * length js + 4) by lia. apply (P 0).
  - cbn [gather map]. change (map (fun i => nth i Y 0) ?l) with (gather 0 Y l). f_equal.
    replace (length js + 2 - 1) with (length js + 1) by lia. rewrite seq_app, map_app. rewrite gather_app. f_equal.
    + apply (nth_ext _ _ 0 0); rewrite gather_length, map_length, seq_length; [reflexivity|]. intros n Hn.
      rewrite nth_gather by (rewrite map_length, seq_length; exact Hn). rewrite (nth_indep (map (fun j => 2 * j + 1) _) 0 ((fun j => 2 * j + 1) 0)) by (rewrite map_length, seq_length; exact Hn).
      rewrite (map_nth (fun j => 2 * j + 1)), seq_nth by exact Hn. replace (2 * (1 + n) + 1) with (2 * n + 3) by lia. apply (P n), Hn.
    + cbn [seq map gather]. f_equal. replace (2 * (1 + length js) + 1) with (2 * length js + 3) by lia. apply (P 0).
  - replace (length js + 2 - 1) with (1 + length js) by lia. rewrite seq_app, map_app, !gather_app. change (om :: os ++ [ol]) with (([om] ++ os) ++ [ol]). f_equal; [f_equal|].
    + apply (nth_ext _ _ 0 0); rewrite gather_length, map_length, seq_length; [symmetry; exact L|]. intros n Hn.
      rewrite nth_gather by (rewrite map_length, seq_length; exact Hn). rewrite (nth_indep (map (fun j => 2 * j + 2) _) 0 ((fun j => 2 * j + 2) 0)) by (rewrite map_length, seq_length; exact Hn).
      rewrite (map_nth (fun j => 2 * j + 2)), seq_nth by exact Hn. replace (2 * (0 + 1 + n) + 2) with (2 * n + 4) by lia. apply (P n), Hn.
    + cbn [gather map]. f_equal. replace (2 * (length js + 2) + 1) with (2 * length js + 5) by lia. apply (P 0).
Qed.

Section Facts.
  Context {R : csr}.
  Notation tensor := (tensor R).
  Add Ring rr : (@rsr R).

  Lemma link_bond (a b : tensor) d e o s s' : shape a = s ++ [d; o] -> shape b = e :: d :: s' ->
    exists t, link a b [rank a - 2] [1] = Ok t /\ shape t = s ++ [o] ++ e :: s' /\
      forall ia io ib ie, length ia = length s -> length ib = length s' ->
        elt t (ia ++ [io] ++ ie :: ib) = nsum d (fun v => elt a (ia ++ [v; io]) *! elt b (ie :: v :: ib)).
  Proof.
    intros Ea Eb. assert (rank a = length s + 2) as Er by (unfold rank; rewrite Ea, app_length; reflexivity).
    replace (rank a - 2) with (length s) by lia.
    assert (forall ia y z, length ia = length s -> gather 0 (ia ++ [y; z]) [length s] = [y]) as Gs.
    { intros ia y z L. rewrite <- L. cbn. rewrite app_nth2, Nat.sub_diag by lia. reflexivity. }
    assert (forall ia y z, length ia = length s -> gather 0 (ia ++ [y; z]) (seq 0 (length s) ++ [S (length s)]) = ia ++ [z]) as Gf.
    { intros ia y z L. rewrite gather_app, <- L. f_equal.
      - apply (@gather_seq_start nat 0 ia [y; z]).
      - cbn. rewrite app_nth2 by lia. replace (S (length ia) - length ia) with 1 by lia. reflexivity. }
    assert (forall ib x y, length ib = length s' -> gather 0 (x :: y :: ib) (0 :: seq 2 (length s')) = x :: ib) as Gb.
    { intros ib x y L. cbn [gather map nth]. f_equal. rewrite <- L. apply (@gather_seq_end nat 0 [x; y]). }
    assert (gather 0 (shape a) [length s] = [d]) as Eg. { rewrite Ea. apply Gs. reflexivity. }
    eexists. split; [apply link_ok; rewrite Eg, Eb; reflexivity|]. split.
    - cbn [tensordot shape]. rewrite Er. unfold rank. rewrite Ea, Eb. cbn [length]. rewrite free_second, free_penult.
      rewrite Gf, Gb by reflexivity. rewrite <- app_assoc. reflexivity.
    - intros ia io ib ie La Lb. rewrite app_assoc.
      rewrite (@td_at R a b [length s] [1] (ia ++ [io]) (ie :: ib) (fun vs => ia ++ [nth 0 vs 0; io]) (fun vs => ie :: nth 0 vs 0 :: ib)).
      + rewrite Eg, idxs1. reflexivity.
      + apply nd1.
      + apply nd1.
      + intros i [<-|[]]; lia.
      + intros i [<-|[]]; unfold rank; rewrite Eb; cbn; lia.
      + rewrite Er, free_penult, !app_length, seq_length. cbn. lia.
      + rewrite Eg. intros vs Hv. apply valid1 in Hv as (v & -> & _). rewrite Er, free_penult. cbn [nth].
        split; [rewrite app_length; cbn; lia|]. split; [apply Gf; exact La|apply Gs; exact La].
      + rewrite Eg. intros vs Hv. apply valid1 in Hv as (v & -> & _). unfold rank. rewrite Eb. cbn [length nth]. rewrite free_second.
        split; [rewrite Lb; reflexivity|]. split; [apply Gb; exact Lb|reflexivity].
  Qed.

  Lemma conv_loop_ok i o bond kw (l : tensor) (ws : list tensor) : shape l = [i; bond; kw; o] -> forall (t : tensor) s,
    map shape ws = repeat [i; bond; bond; o] (length ws) -> shape t = s ++ [bond; o] ->
    exists y, conv_loop t (ws ++ [l]) = Ok y /\ shape y = s ++ [o] ++ weave (repeat i (length ws)) (repeat o (length ws)) ++ [i; kw; o] /\
      forall ia om js os jl x ol, length ia = length s -> length js = length ws -> length os = length ws ->
        elt y (ia ++ [om] ++ weave js os ++ [jl; x; ol]) =
        nsum bond (fun b => nsum bond (fun c => elt t (ia ++ [b; om]) *! mprod bond (mms ws js os) b c *! elt l [jl; c; x; ol])).
  Proof.
    intros El. induction ws as [|w ws IH]; intros t s Es Et; cbn [conv_loop app].
    - destruct (link_bond Et El) as (y & -> & Sy & Vy). cbn [rbind]. exists y. split; [reflexivity|]. split; [exact Sy|].
      intros ia om [|] [|] jl x ol La Lj Lo; try discriminate. cbn [weave app]. pose proof (Vy ia om [x; ol] jl La eq_refl) as EV. cbn [app] in EV. rewrite EV.
      apply nsum_ext. intros b Hb. cbn [mms combine map mprod].
      rewrite (@nsx R bond (fun c => (if b =? c then r1 else r0) *! (elt t (ia ++ [b; om]) *! elt l [jl; c; x; ol]))) by (intros c _; ring).
      rewrite (mprod_delta_l (fun c => elt t (ia ++ [b; om]) *! elt l [jl; c; x; ol]) Hb). reflexivity.
    - cbn [map length repeat] in Es. injection Es as Ew Es.
      destruct (link_bond Et Ew) as (t' & -> & St & Vt). cbn [rbind].
      destruct (IH t' (s ++ [o; i]) Es) as (y & -> & Sy & Vy); [rewrite St, <- app_assoc; reflexivity|].
      exists y. split; [reflexivity|]. split; [rewrite Sy; cbn [length repeat weave]; rewrite <- !app_assoc; reflexivity|].
      intros ia om [|j js] [|o1 os] jl x ol La Lj Lo; try discriminate. cbn [weave].
      pose proof (Vy (ia ++ [om; j]) o1 js os jl x ol ltac:(rewrite !app_length; cbn; lia) ltac:(cbn in Lj; lia) ltac:(cbn in Lo; lia)) as EV.
      rewrite <- app_assoc in EV. cbn [app] in EV |- *. rewrite EV. clear EV. cbn [mms combine map mprod]. fold (mms ws js os).
      transitivity (nsum bond (fun b' => nsum bond (fun c => nsum bond (fun b =>
        elt t (ia ++ [b; om]) *! (elt w [j; b; b'; o1] *! mprod bond (mms ws js os) b' c) *! elt l [jl; c; x; ol])))).
      { apply nsum_ext. intros b' _. apply nsum_ext. intros c _. pose proof (Vt ia om [b'; o1] j La eq_refl) as EV. rewrite <- app_assoc. cbn [app] in EV |- *. rewrite EV.
        rewrite <- !nsum_mul_r. apply nsum_ext. intros b _. ring. }
      rewrite (@nsx R bond (fun b' => nsum bond (fun b => nsum bond (fun c =>
        elt t (ia ++ [b; om]) *! (elt w [j; b; b'; o1] *! mprod bond (mms ws js os) b' c) *! elt l [jl; c; x; ol])))) by (intros b' _; apply nsum_swap).
      rewrite nsum_swap. apply nsum_ext. intros b _. rewrite nsum_swap. apply nsum_ext. intros c _.
      rewrite <- nsum_mul_l, <- nsum_mul_r. reflexivity.
  Qed.

  Lemma flatten_back_ok (t : tensor) h w ds ms : shape t = [h; w] ++ ds ++ ms ->
    shape (flatten_back t (seq 2 (length ds))) = [h; w] ++ ms ++ [nprod ds] /\
    forall a b us os, a < h -> b < w -> valid us ds -> valid os ms ->
      elt (flatten_back t (seq 2 (length ds))) ([a; b] ++ os ++ [ravel ds us]) = elt t ([a; b] ++ us ++ os).
  Proof.
    intros Et. unfold flatten_back. assert (rank t = 2 + length ds + length ms) as Er by (unfold rank; rewrite Et, !app_length; cbn; lia).
    rewrite Er, free_inner.
    assert (forall (x y : nat) us os, length us = length ds -> length os = length ms ->
      gather 0 ([x; y] ++ us ++ os) ([0; 1] ++ seq (2 + length ds) (length ms)) = [x; y] ++ os) as Gf.
    { intros x y us os Lu Lo. rewrite gather_app. f_equal. rewrite <- Lo, <- Lu. rewrite app_assoc.
      replace (2 + length us) with (length ([x; y] ++ us)) by (rewrite app_length; reflexivity). apply gather_seq_end. }
    assert (forall (x y : nat) us os, length us = length ds -> gather 0 ([x; y] ++ us ++ os) (seq 2 (length ds)) = us) as Gs.
    { intros x y us os Lu. rewrite <- Lu. apply (@gather_seq_app nat 0 [x; y] us os). }
    cbn [reshape shape elt transpose]. rewrite (@gather_app nat 0 (shape t) ([0; 1] ++ seq (2 + length ds) (length ms)) (seq 2 (length ds))), Et, Gf, Gs by reflexivity. split; [rewrite <- app_assoc; reflexivity|].
    intros a b us os Ha Hb Hu Ho. pose proof (valid_length Hu) as Lu. pose proof (valid_length Ho) as Lo.
    assert (valid ([a; b] ++ os) ([h; w] ++ ms)) as V1 by (apply valid_app; [repeat constructor; assumption|exact Ho]).
    rewrite app_assoc. rewrite ListFacts.ravel_app by (apply valid_length, V1). cbn [nprod ravel fold_right]. 
    replace (ravel ([h; w] ++ ms) ([a; b] ++ os) * (nprod ds * 1) + (ravel ds us * 1 + 0)) with (ravel (([h; w] ++ ms) ++ ds) (([a; b] ++ os) ++ us))
      by (rewrite ListFacts.ravel_app by (apply valid_length, V1); lia).
    rewrite unravel_ravel by (apply valid_app; assumption). f_equal.
    rewrite <- (Gf a b us os Lu Lo). rewrite <- (Gs a b us os Lu) at 2. rewrite <- gather_app. apply unperm_gather.
    rewrite <- free_inner. replace (length ([a; b] ++ us ++ os)) with (2 + length ds + length ms) by (rewrite !app_length; cbn; lia).
    apply free_axes_perm; [apply seq_NoDup|]. intros i Hi. apply in_seq in Hi. lia.
  Qed.

  Lemma W_conv_digits i o bond (f l : tensor) (ms : list tensor) v js jl om os ol x y a b :
    unravel (repeat i (length ms + 2)) x = v :: js ++ [jl] -> unravel (repeat o (length ms + 2)) y = om :: os ++ [ol] ->
    length js = length ms -> length os = length ms ->
    W_conv (length ms + 2) bond i o (f :: ms ++ [l]) a b x y =
    nsum bond (fun p => nsum bond (fun q => elt f [v; a; p; om] *! mprod bond (mms ms js os) p q *! elt l [jl; q; b; ol])).
  Proof.
    intros Ex Ey Lj Lo. unfold W_conv. rewrite Ex, Ey. replace (length ms + 2 - 1) with (S (length ms)) by lia. replace (length ms + 2 - 2) with (length ms) by lia.
    rewrite nth_end.
    assert (nth (S (length ms)) (v :: js ++ [jl]) 0 = jl) as -> by (rewrite <- Lj; apply nth_end).
    assert (nth (S (length ms)) (om :: os ++ [ol]) 0 = ol) as -> by (rewrite <- Lo; apply nth_end).
    apply nsum_ext. intros p _. apply nsum_ext. intros q _. cbn [nth]. f_equal. f_equal. f_equal. unfold mms.
    rewrite (@combine_nth_map _ _ js os 0 0) by lia. rewrite (@combine_nth_map _ _ ms _ (Tensor [] (fun _ => r0)) (0, 0)) by (rewrite map_length, seq_length; lia).
    rewrite map_map, <- seq_shift, map_map. apply map_ext_in. intros j Hj. apply in_seq in Hj. cbn beta; cbn [fst snd].
    rewrite !app_nth1 by lia. rewrite (nth_indep _ (0, 0) ((fun j => (nth j js 0, nth j os 0)) 0)) by (rewrite map_length, seq_length; lia).
    rewrite (map_nth (fun j => (nth j js 0, nth j os 0))), seq_nth by lia. reflexivity.
  Qed.

  Lemma digits_split d r x : x < d ^ (r + 2) -> exists v js jl, unravel (repeat d (r + 2)) x = v :: js ++ [jl] /\ length js = r /\
    valid (v :: js ++ [jl]) (repeat d (r + 2)) /\ ravel (repeat d (r + 2)) (v :: js ++ [jl]) = x.
  Proof.
    intros Hx. rewrite <- nprod_pow in Hx. pose proof (@unravel_valid _ _ Hx) as V. pose proof (@ravel_unravel _ _ Hx) as E. pose proof (valid_length V) as L.
    rewrite repeat_length in L. destruct (unravel (repeat d (r + 2)) x) as [|v u]; [cbn in L; lia|].
    assert (u <> []) as Hu by (intros ->; cbn in L; lia). destruct (exists_last Hu) as (js & jl & ->). exists v, js, jl.
    cbn in L. rewrite app_length in L. cbn in L. repeat split; try assumption; lia.
  Qed.

  Lemma conv_core k i o bond kh kw (ws : list tensor) : 2 <= k -> map shape ws = [i; kh; bond; o] :: repeat [i; bond; bond; o] (k - 2) ++ [[i; bond; kw; o]] ->
    exists K, conv_kernel ws = Ok K /\ is_kernel k bond i o kh kw ws K.
  Proof.
    intros Hk Es. destruct (ends_split Es) as (f & ms & l & -> & Ef & Em & Lm & El). cbn [conv_kernel].
    destruct (@conv_loop_ok i o bond kw l ms El f [i; kh] Em Ef) as (t & -> & St & Vt). cbn [rbind].
    assert (length (f :: ms ++ [l]) = length ms + 2) as -> by (cbn; rewrite app_length; cbn; lia). assert (k = length ms + 2) as -> by lia. set (r := length ms) in *.
    eexists. split; [reflexivity|]. unfold is_kernel.
    set (T := transpose t (conv_edges (r + 2))).
    assert (shape T = [kh; kw] ++ repeat i (r + 2) ++ repeat o (r + 2)) as ST.
    { unfold T. cbn [transpose shape]. rewrite St. cbn [app].
      pose proof (@gather_edges i kh o (repeat i r) (repeat o r) i kw o ltac:(rewrite !repeat_length; reflexivity)) as G. rewrite repeat_length in G. cbn [app] in G. rewrite G.
      assert (forall d : nat, d :: repeat d r ++ [d] = repeat d (r + 2)) as Er.
      { intros d. rewrite <- repeat_cons. replace (r + 2) with (S (S r)) by lia. reflexivity. }
      rewrite <- !Er. cbn [app]. rewrite <- app_assoc. reflexivity. }
    destruct (flatten_back_ok ST) as [S1 V1]. rewrite repeat_length in S1, V1. set (T1 := flatten_back T (seq 2 (r + 2))) in *.
    destruct (@flatten_back_ok T1 kh kw (repeat o (r + 2)) [nprod (repeat i (r + 2))] S1) as [S2 V2]. rewrite repeat_length in S2, V2.
    split; [rewrite S2, !nprod_pow; reflexivity|].
    intros a b x y Ha Hb Hx Hy. destruct (digits_split Hx) as (v & js & jl & Ux & Lj & Vx & Rx). destruct (digits_split Hy) as (om & os & ol & Uy & Lo & Vy & Ry).
    pose proof (V2 a b (om :: os ++ [ol]) [x] Ha Hb Vy) as E2. rewrite Ry in E2. cbn [app] in E2. rewrite E2 by (repeat constructor; rewrite nprod_pow; exact Hx). clear E2.
    pose proof (V1 a b (v :: js ++ [jl]) (om :: os ++ [ol]) Ha Hb Vx Vy) as E1. rewrite Rx in E1.
    replace (a :: b :: om :: (os ++ [ol]) ++ [x]) with ([a; b] ++ (om :: os ++ [ol]) ++ [x]) by reflexivity. rewrite E1. clear E1.
    unfold T. cbn [transpose elt].
    rewrite <- (@gather_edges v a om js os jl b ol) by lia. rewrite Lj, unperm_gather.
    2:{ rewrite !app_length. rewrite weave_length by lia. cbn [length]. replace (3 + (2 * length js + 3)) with (2 * (r + 2) + 2) by lia. apply conv_edges_perm. lia. }
    pose proof (@W_conv_digits i o bond f l ms v js jl om os ol x y a b Ux Uy Lj Lo) as WD. fold r in WD. rewrite WD.
    pose proof (Vt [v; a] om js os jl b ol eq_refl Lj Lo) as EV. cbn [app] in EV |- *. exact EV.
  Qed.

  Lemma conv_main (round_root ceil_root : nat -> nat -> nat) (n filters k bond kh kw i o : nat) (shapes : list (list nat)) (ws : list tensor)
    (conv : tensor -> tensor -> res tensor) (bias : option tensor) (act : tensor -> tensor) (inputs : tensor) :
    conv_build round_root ceil_root n filters k bond kh kw = Ok (i, o, shapes) -> i ^ k = n -> o ^ k = filters -> map shape ws = shapes ->
    exists K, is_kernel k bond i o kh kw ws K /\ shape K = [kh; kw; n; filters] /\
      forall r, conv inputs K = Ok r -> last (shape r) 0 = filters ->
        exists z, conv2d_mpo conv ws filters bias act inputs = Ok (act z) /\ plus_channel bias r z.
  Proof.
    unfold conv_build. destruct (k <? 2) eqn:Hk; [discriminate|]. apply Nat.ltb_ge in Hk.
    destruct (negb _); [discriminate|]. destruct (negb _); [discriminate|]. intros E Hn Ho Es. injection E as Ei Eo <-. rewrite Ei, Eo in Es.
    destruct (@conv_core k i o bond kh kw ws Hk Es) as (K & EK & IK). exists K. split; [exact IK|]. split; [rewrite (proj1 IK), Hn, Ho; reflexivity|].
    intros r Er El. unfold conv2d_mpo. rewrite EK. cbn [rbind]. rewrite Er. cbn [rbind]. unfold add_bias, plus_channel, bias_at. destruct bias as [b|].
    - rewrite El, Nat.eqb_refl. cbn [rbind]. eexists. split; [reflexivity|]. split; [reflexivity|]. intros ix. reflexivity.
    - cbn [rbind]. exists r. split; [reflexivity|]. split; [reflexivity|]. intros ix. ring.
  Qed.
End Facts.
