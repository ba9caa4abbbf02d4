(** * KerasFacts: the networks of DenseDecomp, DenseExpander, DenseCondenser and DenseMPO are their weight matrices *)
From Verif Require Import Prelude Algebra Tensor TensorFacts Res Backends ListFacts Keras KerasSpec KerasCall.
Set Implicit Arguments.
Unset Strict Implicit.

Section Facts.
  Context {R : csr}.
  Notation tensor := (tensor R).
  Add Ring rr : (@rsr R).

  Lemma nsx n (g f : nat -> R) : (forall i, i < n -> f i = g i) -> nsum n f = nsum n g.
  Proof. apply nsum_ext. Qed.
  Lemma lsx A (l : list A) (g f : A -> R) : (forall x, In x l -> f x = g x) -> lsum l f = lsum l g.
  Proof. apply lsum_ext. Qed.
  Lemma to_list_unravel (t : tensor) : to_list t = map (fun o => elt t (unravel (shape t) o)) (seq 0 (nprod (shape t))).
  Proof. unfold to_list. rewrite idxs_unravel, map_map. reflexivity. Qed.
  Lemma unravel1 n k : unravel [n] k = [k].
  Proof. unfold unravel. change (nprod []) with 1. rewrite Nat.div_1_r. reflexivity. Qed.
  Lemma elt_shaped (x : tensor) n s js : shape x = [n] -> elt (reshape x s) js = elt x [ravel s js].
  Proof. intros E. cbn [reshape elt]. rewrite E, unravel1. reflexivity. Qed.
  Lemma to_shape_ok (x : tensor) s : nprod s = nprod (shape x) -> to_shape x s = Ok (reshape x s).
  Proof. intros E. unfold to_shape. rewrite E, Nat.eqb_refl. reflexivity. Qed.
  Lemma nsum_digits s n (f : nat -> R) : nprod s = n -> nsum n f = lsum (idxs s) (fun js => f (ravel s js)).
  Proof.
    intros <-. rewrite <- nsum_unravel. apply nsum_ext. intros i Hi. rewrite ravel_unravel by exact Hi. reflexivity.
  Qed.
  Lemma by_matrix_ext n W (x x' : nat -> R) o : (forall i, i < n -> x i = x' i) -> by_matrix n W x o = by_matrix n W x' o.
  Proof. intros H. apply nsum_ext. intros i Hi. rewrite (H i Hi). reflexivity. Qed.

  Lemma mprod_delta_l D (f : nat -> R) a : a < D -> nsum D (fun c => (if a =? c then r1 else r0) *! f c) = f a.
  Proof.
    intros H. rewrite (@nsum_single R D _ a H).
    - rewrite Nat.eqb_refl. ring.
    - intros i _ Hi. destruct (Nat.eqb_spec a i); [congruence|]. ring.
  Qed.
  Lemma mprod_delta_r D (f : nat -> R) a : a < D -> nsum D (fun c => f c *! (if c =? a then r1 else r0)) = f a.
  Proof.
    intros H. rewrite (@nsum_single R D _ a H).
    - rewrite Nat.eqb_refl. ring.
    - intros i _ Hi. destruct (Nat.eqb_spec i a); [congruence|]. ring.
  Qed.

  (** ** DenseDecomp *)
  Lemma decomp_core (a b x : tensor) bias n D out : shape a = [n; D] -> shape b = [D; out] -> shape x = [n] -> bias_ok bias out ->
    exists y, decomp_f a b bias x = Ok y /\ to_list y = map (fun o => by_matrix n (W_decomp D a b) (fun i => elt x [i]) o +! bias_at bias o) (seq 0 out).
  Proof.
    intros Ea Eb Ex B. unfold decomp_f. destruct (@link_head R a x n [D] [] Ea Ex) as (c & -> & Sc & Vc). cbn [rbind].
    destruct (@link_head R c b D [] [out] Sc Eb) as (y & -> & Sy & Vy). cbn [rbind app] in *.
    apply (@bias_list R y bias out (fun o => by_matrix n (W_decomp D a b) (fun i => elt x [i]) o)); [left; exact Sy|exact B|].
    rewrite to_list_unravel, Sy. replace (nprod [out]) with out by (cbn; lia). apply map_ext_in. intros o _. rewrite unravel1.
    pose proof (Vy [] [o] eq_refl eq_refl) as E. cbn [app] in E. rewrite E. unfold by_matrix, W_decomp.
    rewrite (@nsx n (fun i => nsum D (fun j => elt x [i] *! (elt a [i; j] *! elt b [j; o])))) by (intros i _; symmetry; apply nsum_mul_l).
    rewrite nsum_swap. apply nsum_ext. intros j _. pose proof (Vc [j] [] eq_refl eq_refl) as E'. cbn [app] in E'. rewrite E', <- nsum_mul_r.
    apply nsum_ext. intros i _. ring.
  Qed.

  (** ** DenseExpander *)
  Definition ems (ws : list tensor) (es : list nat) : list (nat -> nat -> R) := map (fun p => fun a b => elt (fst p) [a; snd p; b]) (combine ws es).
  Lemma combine_nth_map A B (l : list A) (m : list B) a b : length l = length m -> combine l m = map (fun j => (nth j l a, nth j m b)) (seq 0 (length l)).
  Proof.
    revert m. induction l as [|x l IH]; intros [|y m] H; try discriminate; [reflexivity|]. cbn [combine length seq map nth]. f_equal.
    rewrite <- seq_shift, map_map. apply IH. cbn in H. lia.
  Qed.
  Lemma expander_loop_ok D base (ws : list tensor) : forall (t : tensor) s, map shape ws = repeat [D; base; D] (length ws) -> shape t = s ++ [D] ->
    exists y, expander_loop t ws = Ok y /\ shape y = s ++ repeat base (length ws) ++ [D] /\
      forall ia es d, length ia = length s -> length es = length ws -> d < D ->
        elt y (ia ++ es ++ [d]) = nsum D (fun c => elt t (ia ++ [c]) *! mprod D (ems ws es) c d).
  Proof.
    induction ws as [|w ws IH]; intros t s Es Et; cbn [expander_loop].
    - exists t. split; [reflexivity|]. split; [exact Et|]. intros ia es d _ Le Hd. destruct es; [|discriminate]. cbn [app ems combine map mprod].
      rewrite (mprod_delta_r (fun c => elt t (ia ++ [c])) Hd). reflexivity.
    - cbn [map length repeat] in Es. injection Es as Ew Es.
      destruct (@link_last R t w D s [base; D] Et Ew) as (t' & -> & St & Vt). cbn [rbind].
      assert (shape t' = (s ++ [base]) ++ [D]) as St' by (rewrite St, <- app_assoc; reflexivity).
      destruct (IH t' _ Es St') as (y & -> & Sy & Vy). exists y. split; [reflexivity|]. split.
      + rewrite Sy. cbn [length repeat]. rewrite <- !app_assoc. reflexivity.
      + intros ia [|e es] d La Le Hd; [discriminate|]. cbn in Le.
        replace (ia ++ (e :: es) ++ [d]) with ((ia ++ [e]) ++ es ++ [d]) by (rewrite <- app_assoc; reflexivity).
        rewrite Vy by (rewrite ?app_length; cbn; lia). cbn [ems combine map fst snd mprod]. fold (ems ws es).
        rewrite (@nsx D (fun c => nsum D (fun v => elt t (ia ++ [v]) *! (elt w [v; e; c] *! mprod D (ems ws es) c d)))).
        * rewrite nsum_swap. apply nsum_ext. intros v _. rewrite nsum_mul_l. reflexivity.
        * intros c _. rewrite <- app_assoc. cbn [app]. rewrite (Vt ia [e; c] La eq_refl), <- nsum_mul_r. apply nsum_ext. intros v _. ring.
  Qed.
  Lemma expander_core (ws : list tensor) (x : tensor) bias n base : map shape ws = expander_shapes n base (length ws) -> 0 < n -> 0 < base -> shape x = [n] ->
    bias_ok bias (expander_out n base (length ws)) ->
    exists y, expander_f ws bias x = Ok y /\
      to_list y = map (fun o => by_matrix n (W_expander (length ws) base n ws) (fun i => elt x [i]) o +! bias_at bias o) (seq 0 (expander_out n base (length ws))).
  Proof.
    intros Es Hn Hb Ex B. unfold expander_f. destruct (@expander_loop_ok n base ws x [] Es Ex) as (y & -> & Sy & Vy). cbn [rbind app] in *.
    assert (nprod (shape y) = expander_out n base (length ws)) as Ep.
    { rewrite Sy, nprod_app, nprod_pow. cbn. unfold expander_out. lia. }
    apply (@bias_list R (flat y) bias _ (fun o => by_matrix n (W_expander (length ws) base n ws) (fun i => elt x [i]) o));
      [left; cbn; rewrite Ep; reflexivity|exact B|].
    unfold flat. rewrite reshape_to_list by (cbn; lia). rewrite to_list_unravel, Ep. apply map_ext_in. intros o Ho. apply in_seq in Ho.
    assert (valid (unravel (shape y) o) (shape y)) as V by (apply unravel_valid; lia). rewrite Sy in V |- *.
    set (dg := unravel (repeat base (length ws) ++ [n]) o) in *.
    destruct (@valid_app_inv dg (repeat base (length ws)) [n] V) as (V1 & V2). rewrite repeat_length in V1, V2. apply valid1 in V2 as (d & E2 & Hd).
    assert (dg = firstn (length ws) dg ++ [d]) as Ed by (rewrite <- E2; symmetry; apply firstn_skipn).
    set (es := firstn (length ws) dg) in *. assert (length es = length ws) as Le by (apply valid_length in V1; rewrite repeat_length in V1; exact V1).
    rewrite Ed at 1. pose proof (Vy [] es d eq_refl Le Hd) as E. cbn [app] in E. rewrite E. unfold by_matrix. apply nsum_ext. intros c _. f_equal.
    unfold W_expander. fold dg. assert (nth (length ws) dg 0 = d) as -> by (rewrite Ed, app_nth2 by lia; rewrite Le, Nat.sub_diag; reflexivity).
    f_equal. unfold ems. rewrite (@combine_nth_map _ _ ws es (Tensor [] (fun _ => r0)) 0) by (symmetry; exact Le). rewrite map_map. apply map_ext_in. intros j Hj.
    apply in_seq in Hj. cbn [fst snd]. assert (nth j dg 0 = nth j es 0) as -> by (rewrite Ed, app_nth1 by lia; reflexivity). reflexivity.
  Qed.

  (** ** DenseCondenser *)
  Lemma condenser_loop_ok D base (ws : list tensor) : forall (t : tensor), map shape ws = repeat [D; base; D] (length ws) -> shape t = repeat base (length ws) ++ [D] ->
    exists y, condenser_loop t ws = Ok y /\ shape y = [D] /\
      forall o, o < D -> elt y [o] = lsum (idxs (repeat base (length ws))) (fun es => nsum D (fun d => elt t (es ++ [d]) *! mprod D (ems ws (rev es)) d o)).
  Proof.
    induction ws as [|w ws IH]; intros t Es Et; cbn [condenser_loop].
    - exists t. split; [reflexivity|]. split; [exact Et|]. intros o Ho. cbn [length repeat idxs lsum fold_right rev ems combine map mprod app].
      rewrite (mprod_delta_r (fun d => elt t [d]) Ho). ring.
    - cbn [map length repeat] in Es. injection Es as Ew Es.
      assert (shape t = repeat base (length ws) ++ [base; D]) as Et'.
      { rewrite Et. cbn [length]. replace (repeat base (S (length ws))) with (repeat base (length ws) ++ [base]) by (symmetry; apply repeat_cons). rewrite <- app_assoc. reflexivity. }
      destruct (@link_last2 R t w D base (repeat base (length ws)) [D] Et' Ew) as (t' & -> & St & Vt). cbn [rbind].
      destruct (IH t' Es St) as (y & -> & Sy & Vy). exists y. split; [reflexivity|]. split; [exact Sy|]. intros o Ho. rewrite (Vy o Ho).
      cbn [length]. replace (repeat base (S (length ws))) with (repeat base (length ws) ++ [base]) by (symmetry; apply repeat_cons).
      rewrite lsum_idxs_app. apply lsum_ext. intros es Hes. apply In_idxs in Hes. apply valid_length in Hes. rewrite idxs1.
      rewrite (@nsx D (fun c => nsum base (fun e => nsum D (fun v => elt t (es ++ [e; v]) *! (elt w [v; e; c] *! mprod D (ems ws (rev es)) c o))))).
      + rewrite nsum_swap. apply nsum_ext. intros e _. rewrite nsum_swap. apply nsum_ext. intros v _. rewrite nsum_mul_l. rewrite <- app_assoc. cbn [app].
        rewrite rev_app_distr. reflexivity.
      + intros c _. rewrite (Vt es [c] Hes eq_refl), nsum_swap, <- nsum_mul_r. apply nsum_ext. intros e _. rewrite <- nsum_mul_r. apply nsum_ext. intros v _. ring.
  Qed.
  Lemma condenser_core (ws : list tensor) (x : tensor) bias n base D : n = base ^ length ws * D -> map shape ws = condenser_shapes D base (length ws) ->
    0 < n -> shape x = [n] -> bias_ok bias D ->
    exists y, condenser_f ws base D bias x = Ok y /\
      to_list y = map (fun o => by_matrix n (W_condenser (length ws) base D ws) (fun i => elt x [i]) o +! bias_at bias o) (seq 0 D).
  Proof.
    intros En Es Hn Ex B. unfold condenser_f. set (s := repeat base (length ws) ++ [D]).
    assert (nprod s = n) as Ep by (unfold s; rewrite nprod_app, nprod_pow; cbn; lia).
    rewrite to_shape_ok by (rewrite Ex, Ep; cbn; lia). cbn [rbind].
    destruct (@condenser_loop_ok D base ws (reshape x s) Es eq_refl) as (y & -> & Sy & Vy). cbn [rbind].
    apply (@bias_list R (flat y) bias _ (fun o => by_matrix n (W_condenser (length ws) base D ws) (fun i => elt x [i]) o));
      [left; cbn; rewrite Sy; cbn; f_equal; lia|exact B|].
    unfold flat. rewrite reshape_to_list by (cbn; lia). rewrite to_list_unravel, Sy. replace (nprod [D]) with D by (cbn; lia).
    apply map_ext_in. intros o Ho. apply in_seq in Ho. rewrite unravel1, (Vy o) by lia. unfold by_matrix. rewrite (nsum_digits _ Ep). unfold s. rewrite lsum_idxs_app.
    apply lsum_ext. intros es Hes. apply In_idxs in Hes. pose proof (valid_length Hes) as Le. rewrite repeat_length in Le. rewrite idxs1. apply nsum_ext. intros d Hd.
    fold s. rewrite (elt_shaped _ _ Ex). f_equal. unfold W_condenser. fold s.
    assert (valid (es ++ [d]) s) as V by (apply valid_app; [exact Hes|constructor; [exact Hd|constructor]]). rewrite (unravel_ravel V).
    rewrite app_nth2 by lia. rewrite Le, Nat.sub_diag. cbn [nth]. f_equal. unfold ems.
    rewrite (@combine_nth_map _ _ ws (rev es) (Tensor [] (fun _ => r0)) 0) by (rewrite rev_length; lia). rewrite map_map. apply map_ext_in. intros j Hj. apply in_seq in Hj.
    cbn [fst snd]. rewrite rev_nth by lia. rewrite app_nth1 by lia. replace (length es - S j) with (length ws - 1 - j) by lia. reflexivity.
  Qed.

  (** ** DenseMPO *)
  Definition mms (ws : list tensor) (js os : list nat) : list (nat -> nat -> R) :=
    map (fun p => fun b c => elt (fst p) [fst (snd p); b; c; snd (snd p)]) (combine ws (combine js os)).
  Lemma mpo_loop_ok k i o bond (l : tensor) (ws : list tensor) : shape l = [i; bond; o] -> forall (t : tensor) m,
    map shape ws = repeat [i; bond; bond; o] (length ws) -> shape t = repeat i (S (length ws)) ++ repeat o m ++ [bond; o] -> k = length ws + 2 + m ->
    exists y, mpo_loop k t (ws ++ [l]) = Ok y /\ shape y = repeat o (m + length ws + 2) /\
      forall os om os' ol, length os = m -> length os' = length ws ->
        elt y (os ++ [om] ++ os' ++ [ol]) = lsum (idxs (repeat i (length ws))) (fun js => nsum i (fun jl => nsum bond (fun b => nsum bond (fun c =>
          elt t (js ++ [jl] ++ os ++ [b; om]) *! (mprod bond (mms ws js os') b c *! elt l [jl; c; ol]))))).
  Proof.
    intros El. induction ws as [|w ws IH]; intros t m Es Et Ek; cbn [mpo_loop app].
    - cbn [length repeat app plus] in Et. destruct (@link_mid R t l i bond o (repeat o m) [o] (k - 1) Et El) as (y & -> & Sy & Vy); [rewrite repeat_length; cbn in Ek; lia|].
      cbn [rbind]. exists y. split; [reflexivity|]. split.
      + rewrite Sy. cbn [app length]. replace (m + 0 + 2) with (m + 2) by lia. rewrite repeat_app. reflexivity.
      + intros os om os' ol Lo Lo'. destruct os'; [|discriminate]. pose proof (Vy os om [ol] ltac:(rewrite repeat_length; exact Lo) eq_refl) as E.
        cbn [app length repeat idxs lsum fold_right] in *. rewrite E.
        transitivity (nsum i (fun jl => nsum bond (fun b => nsum bond (fun c => elt t (jl :: os ++ [b; om]) *! (mprod bond (mms [] [] []) b c *! elt l [jl; c; ol]))))); [|ring].
        apply nsum_ext. intros jl _. apply nsum_ext. intros b Hb. rewrite nsum_mul_l. f_equal. cbn [mms combine map mprod].
        rewrite (mprod_delta_l (fun c => elt l [jl; c; ol]) Hb). reflexivity.
    - cbn [map length repeat] in Es. injection Es as Ew Es. cbn [length] in *.
      assert (shape t = i :: (repeat i (S (length ws)) ++ repeat o m) ++ [bond; o]) as Et' by (rewrite Et; cbn; rewrite <- app_assoc; reflexivity).
      destruct (@link_mid R t w i bond o (repeat i (S (length ws)) ++ repeat o m) [bond; o] (k - 1) Et' Ew) as (t' & -> & St & Vt);
        [rewrite app_length, !repeat_length; lia|].
      cbn [rbind].
      assert (shape t' = repeat i (S (length ws)) ++ repeat o (S m) ++ [bond; o]) as St'.
      { rewrite St. replace (repeat o (S m)) with (repeat o m ++ [o]) by (symmetry; apply repeat_cons). rewrite <- !app_assoc. reflexivity. }
      destruct (IH t' (S m) Es St') as (y & -> & Sy & Vy); [lia|]. exists y. split; [reflexivity|]. split.
      + rewrite Sy. f_equal. lia.
      + intros os om [|o1 os'] ol Lo Lo'; [discriminate|]. cbn in Lo'.
        pose proof (Vy (os ++ [om]) o1 os' ol ltac:(rewrite app_length; cbn; lia) ltac:(lia)) as EV. rewrite <- app_assoc in EV. cbn [app] in EV |- *. rewrite EV. clear EV.
        cbn [repeat]. rewrite lsum_idxs_cons.
        rewrite (@lsx _ (idxs (repeat i (length ws))) (fun js => nsum i (fun j => nsum i (fun jl => nsum bond (fun b => nsum bond (fun c =>
          elt t ((j :: js) ++ [jl] ++ os ++ [b; om]) *! (mprod bond (mms (w :: ws) (j :: js) (o1 :: os')) b c *! elt l [jl; c; ol]))))))).
        * unfold nsum at 1. rewrite lsum_swap. reflexivity.
        * intros js Hjs. apply In_idxs in Hjs. apply valid_length in Hjs. rewrite repeat_length in Hjs.
          rewrite (nsum_swap i i). apply nsum_ext. intros jl _.
          rewrite (@nsx bond (fun b' => nsum bond (fun c => nsum i (fun j => nsum bond (fun b =>
            elt t ((j :: js) ++ [jl] ++ os ++ [b; om]) *! ((elt w [j; b; b'; o1] *! mprod bond (mms ws js os') b' c) *! elt l [jl; c; ol])))))).
          -- transitivity (nsum i (fun j => nsum bond (fun b => nsum bond (fun c => nsum bond (fun b' =>
               elt t ((j :: js) ++ [jl] ++ os ++ [b; om]) *! ((elt w [j; b; b'; o1] *! mprod bond (mms ws js os') b' c) *! elt l [jl; c; ol])))))).
             ++ rewrite nsum_swap. rewrite (@nsx bond (fun c => nsum i (fun j => nsum bond (fun b' => nsum bond (fun b =>
                  elt t ((j :: js) ++ [jl] ++ os ++ [b; om]) *! ((elt w [j; b; b'; o1] *! mprod bond (mms ws js os') b' c) *! elt l [jl; c; ol])))))) by (intros c _; apply nsum_swap).
                rewrite nsum_swap. apply nsum_ext. intros j _.
                rewrite (@nsx bond (fun c => nsum bond (fun b => nsum bond (fun b' =>
                  elt t ((j :: js) ++ [jl] ++ os ++ [b; om]) *! ((elt w [j; b; b'; o1] *! mprod bond (mms ws js os') b' c) *! elt l [jl; c; ol]))))) by (intros c _; apply nsum_swap).
                rewrite nsum_swap. reflexivity.
             ++ apply nsum_ext. intros j _. apply nsum_ext. intros b _. apply nsum_ext. intros c _. rewrite nsum_mul_l. f_equal. rewrite nsum_mul_r. f_equal.
          -- intros b' _. apply nsum_ext. intros c _.
             pose proof (Vt (js ++ jl :: os) om [b'; o1] ltac:(rewrite !app_length, !repeat_length; cbn [length]; lia) eq_refl) as EV.
             match goal with |- elt t' ?X *! _ = _ => replace X with ((js ++ jl :: os) ++ [om] ++ [b'; o1]) by (cbn [app]; rewrite <- ?app_assoc; cbn [app]; rewrite <- ?app_assoc; reflexivity) end.
             rewrite EV. rewrite <- nsum_mul_r. apply nsum_ext. intros j _. rewrite <- nsum_mul_r. apply nsum_ext. intros b _.
             rewrite <- app_assoc. cbn [app]. ring.
  Qed.

  Lemma ends_split (ws : list tensor) A B C r : map shape ws = A :: repeat B r ++ [C] ->
    exists f mids l, ws = f :: mids ++ [l] /\ shape f = A /\ map shape mids = repeat B (length mids) /\ length mids = r /\ shape l = C.
  Proof.
    intros E. destruct ws as [|f ws]; [discriminate|]. cbn in E. injection E as Ef E. apply map_eq_app in E as (mids & l & -> & Em & El).
    destruct l as [|l [|? ?]]; try discriminate. injection El as El. exists f, mids, l. split; [reflexivity|]. split; [exact Ef|].
    assert (length mids = r) as L by (rewrite <- (map_length shape mids), Em; apply repeat_length). rewrite L. split; [exact Em|]. split; [reflexivity|exact El].
  Qed.
  Lemma nth_mid A (a : A) l b j d : S j <= length l -> nth (S j) (a :: l ++ [b]) d = nth j l d.
  Proof. intros H. cbn. apply app_nth1. lia. Qed.
  Lemma nth_end A (a : A) l b d : nth (S (length l)) (a :: l ++ [b]) d = b.
  Proof. cbn. rewrite app_nth2, Nat.sub_diag by lia. reflexivity. Qed.
  Lemma W_mpo_digits i o bond (f l : tensor) (ms : list tensor) v js jl om os ol x y :
    unravel (repeat i (length ms + 2)) x = v :: js ++ [jl] -> unravel (repeat o (length ms + 2)) y = om :: os ++ [ol] ->
    length js = length ms -> length os = length ms ->
    W_mpo (length ms + 2) bond i o (f :: ms ++ [l]) x y =
    nsum bond (fun b => nsum bond (fun c => elt f [v; b; om] *! mprod bond (mms ms js os) b c *! elt l [jl; c; ol])).
  Proof.
    intros Ex Ey Lj Lo. unfold W_mpo. rewrite Ex, Ey. replace (length ms + 2 - 1) with (S (length ms)) by lia. replace (length ms + 2 - 2) with (length ms) by lia.
    rewrite nth_end.
    assert (nth (S (length ms)) (v :: js ++ [jl]) 0 = jl) as -> by (rewrite <- Lj; apply nth_end).
    assert (nth (S (length ms)) (om :: os ++ [ol]) 0 = ol) as -> by (rewrite <- Lo; apply nth_end).
    apply nsum_ext. intros b _. apply nsum_ext. intros c _. cbn [nth]. f_equal. f_equal. f_equal. unfold mms.
    rewrite (@combine_nth_map _ _ js os 0 0) by lia. rewrite (@combine_nth_map _ _ ms _ (Tensor [] (fun _ => r0)) (0, 0)) by (rewrite map_length, seq_length; lia).
    rewrite map_map, <- seq_shift, map_map. apply map_ext_in. intros j Hj. apply in_seq in Hj. cbn beta; cbn [fst snd].
    rewrite !app_nth1 by lia. rewrite (nth_indep _ (0, 0) ((fun j => (nth j js 0, nth j os 0)) 0)) by (rewrite map_length, seq_length; lia).
    rewrite (map_nth (fun j => (nth j js 0, nth j os 0))), seq_nth by lia. reflexivity.
  Qed.

  Lemma mpo_core k i o bond (ws : list tensor) (x : tensor) bias : 2 < k -> 0 < o -> map shape ws = [i; bond; o] :: repeat [i; bond; bond; o] (k - 2) ++ [[i; bond; o]] ->
    shape x = [i ^ k] -> bias_ok bias (o ^ k) ->
    exists y, mpo_f ws k i (o ^ k) bias x = Ok y /\
      to_list y = map (fun p => by_matrix (i ^ k) (W_mpo k bond i o ws) (fun j => elt x [j]) p +! bias_at bias p) (seq 0 (o ^ k)).
  Proof.
    intros Hk Ho Es Ex B. destruct (ends_split Es) as (f & ms & l & -> & Ef & Em & Lm & El).
    assert (k = length ms + 2) as Ek by lia. unfold mpo_f. rewrite to_shape_ok by (rewrite Ex, nprod_pow; cbn; lia). cbn [rbind].
    assert (repeat i k = i :: repeat i (S (length ms))) as Er by (rewrite Ek; replace (length ms + 2) with (S (S (length ms))) by lia; reflexivity).
    destruct (@link_head R (reshape x (repeat i k)) f i (repeat i (S (length ms))) [bond; o] Er Ef) as (t & -> & St & Vt). cbn [rbind].
    destruct (@mpo_loop_ok k i o bond l ms El t 0 Em St ltac:(lia)) as (y & -> & Sy & Vy). cbn [rbind plus] in *. rewrite <- Ek in Sy.
    assert (nprod (shape y) = o ^ k) as Ep by (rewrite Sy; apply nprod_pow).
    assert (0 < o ^ k) as Hp by (apply Nat.neq_0_lt_0, Nat.pow_nonzero; lia).
    unfold to_shape_infer. rewrite Ep. replace (nprod [o ^ k]) with (o ^ k) by (cbn; lia).
    replace (o ^ k =? 0) with false by (symmetry; apply Nat.eqb_neq; lia). rewrite Nat.mod_same, Nat.div_same by lia. cbn [orb negb Nat.eqb rbind].
    apply (@bias_list R _ bias _ (fun p => by_matrix (i ^ k) (W_mpo k bond i o (f :: ms ++ [l])) (fun j => elt x [j]) p)); [right; reflexivity|exact B|].
    rewrite reshape_to_list by (rewrite Ep; cbn; lia). rewrite to_list_unravel, Ep. apply map_ext_in. intros p Hpp. apply in_seq in Hpp.
    assert (valid (unravel (shape y) p) (shape y)) as V by (apply unravel_valid; lia). rewrite Sy in V |- *.
    set (dg := unravel (repeat o k) p) in *.
    assert (length dg = k) as Ld by (apply valid_length in V; rewrite repeat_length in V; exact V).
    assert (exists om os ol, dg = om :: os ++ [ol] /\ length os = length ms) as (om & os & ol & Ed & Lo).
    { destruct dg as [|om rest]; [cbn in Ld; lia|]. destruct rest as [|a rest] using rev_ind; [cbn in Ld; lia|]. exists om, rest, a. split; [reflexivity|].
      cbn in Ld. rewrite app_length in Ld. cbn in Ld. lia. }
    rewrite Ed. pose proof (Vy [] om os ol eq_refl Lo) as E. cbn [app] in E. rewrite E. clear E.
    unfold by_matrix. rewrite (@nsum_digits (repeat i k) (i ^ k) _ (nprod_pow i k)). rewrite Er at 1. rewrite lsum_idxs_cons.
    replace (repeat i (S (length ms))) with (repeat i (length ms) ++ [i]) by (symmetry; apply repeat_cons).
    symmetry. transitivity (nsum i (fun v => lsum (idxs (repeat i (length ms))) (fun js => nsum i (fun jl => nsum bond (fun b => nsum bond (fun c =>
      elt x [ravel (repeat i k) (v :: js ++ [jl])] *! (elt f [v; b; om] *! mprod bond (mms ms js os) b c *! elt l [jl; c; ol]))))))).
    - apply nsum_ext. intros v Hv. rewrite lsum_idxs_app. apply lsum_ext. intros js Hjs. apply In_idxs in Hjs. pose proof (valid_length Hjs) as Lj. rewrite repeat_length in Lj.
      rewrite idxs1. apply nsum_ext. intros jl Hjl.
      assert (valid (v :: js ++ [jl]) (repeat i k)) as Vj.
      { rewrite Er. constructor; [lia|]. replace (repeat i (S (length ms))) with (repeat i (length ms) ++ [i]) by (symmetry; apply repeat_cons).
        apply valid_app; [exact Hjs|constructor; [exact Hjl|constructor]]. }
      rewrite Ek at 2. rewrite (@W_mpo_digits i o bond f l ms v js jl om os ol).
      + rewrite <- nsum_mul_l. apply nsum_ext. intros b _. rewrite nsum_mul_l. reflexivity.
      + rewrite <- Ek. apply unravel_ravel. exact Vj.
      + rewrite <- Ek. exact Ed.
      + exact Lj.
      + exact Lo.
    - unfold nsum at 1. rewrite lsum_swap. apply lsum_ext. intros js Hjs. apply In_idxs in Hjs. apply valid_length in Hjs. rewrite repeat_length in Hjs.
      fold (nsum i (fun v => nsum i (fun jl => nsum bond (fun b => nsum bond (fun c =>
        elt x [ravel (repeat i k) (v :: js ++ [jl])] *! (elt f [v; b; om] *! mprod bond (mms ms js os) b c *! elt l [jl; c; ol])))))).
      rewrite nsum_swap. apply nsum_ext. intros jl _. rewrite nsum_swap. apply nsum_ext. intros b _. rewrite nsum_swap. apply nsum_ext. intros c _. symmetry.
      replace (js ++ jl :: [b; om]) with ((js ++ [jl]) ++ [b; om]) by (rewrite <- app_assoc; reflexivity).
      rewrite Vt by (rewrite ?app_length, ?repeat_length; cbn; lia). rewrite <- nsum_mul_r. apply nsum_ext. intros v _. rewrite (elt_shaped _ _ Ex). ring.
  Qed.
End Facts.
