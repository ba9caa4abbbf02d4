(** * DmrgBlock: the local eigenproblem is the restriction of the operator to the block *)
From Coq Require Import List ZArith Lia Permutation.
From Verif Require Import Prelude Res Algebra Tensor TensorFacts ListFacts MpsSpec MpsState MpsDouble Mps Dmrg DmrgNcon DmrgSpec DmrgTriple.
Import ListNotations.
Set Implicit Arguments.
Unset Strict Implicit.
Local Open Scope nat_scope.
Local Open Scope csr_scope.

Section Fact.
  Context {R : csr}.
  Add Ring Rring : (rsr R).
  Lemma fact3 A B C Z Z' (la : list A) (lb : list B) (lc : list C) (lz : list Z) (lz' : list Z') f g h :
    lsum la (fun i => lsum lb (fun j => lsum lc (fun k => lsum lz (fun z => lsum lz' (fun z' => f z i *! (g z z' j *! h z' k)))))) =
    lsum (R := R) lz (fun z => lsum lz' (fun z' => lsum la (f z) *! (lsum lb (g z z') *! lsum lc (h z')))).
  Proof.
    transitivity (lsum la (fun i => lsum lb (fun j => lsum lz (fun z => lsum lz' (fun z' => lsum lc (fun k => f z i *! (g z z' j *! h z' k))))))).
    - apply lsum_ext. intros i _. apply lsum_ext. intros j _. apply lsum_swap12.
    - transitivity (lsum la (fun i => lsum lz (fun z => lsum lz' (fun z' => lsum lb (fun j => lsum lc (fun k => f z i *! (g z z' j *! h z' k))))))).
      + apply lsum_ext. intros i _. apply lsum_swap12.
      + rewrite lsum_swap12. apply lsum_ext. intros z _. apply lsum_ext. intros z' _. rewrite <- lsum_mul_r. apply lsum_ext. intros i _.
        rewrite <- lsum_mul_r, <- lsum_mul_l. apply lsum_ext. intros j _. rewrite <- !lsum_mul_l. reflexivity.
  Qed.
  Lemma lsum_pair3 A B C (a a' : list A) (b b' : list B) (c c' : list C) f :
    lsum (R := R) a (fun x => lsum b (fun y => lsum c (fun z => lsum a' (fun x' => lsum b' (fun y' => lsum c' (fun z' => f x x' y y' z z')))))) =
    lsum (list_prod a a') (fun i => lsum (list_prod b b') (fun j => lsum (list_prod c c') (fun k => f (fst i) (snd i) (fst j) (snd j) (fst k) (snd k)))).
  Proof.
    rewrite <- (lsum_pair a a' (fun x x' => lsum (list_prod b b') (fun j => lsum (list_prod c c') (fun k => f x x' (fst j) (snd j) (fst k) (snd k))))).
    apply lsum_ext. intros x _.
    transitivity (lsum a' (fun x' => lsum b (fun y => lsum c (fun z => lsum b' (fun y' => lsum c' (fun z' => f x x' y y' z z')))))).
    - symmetry. apply lsum_swap12.
    - apply lsum_ext. intros x' _. rewrite <- (lsum_pair b b' (fun y y' => lsum (list_prod c c') (fun k => f x x' y y' (fst k) (snd k)))).
      apply lsum_ext. intros y _. rewrite lsum_swap. apply lsum_ext. intros y' _. apply (lsum_pair c c' (fun z z' => f x x' y y' z z')).
  Qed.
End Fact.

Section Block.
  Context {R : cjr}.
  Add Ring Rring2 : (rsr R).
  Notation tensor := (Tensor.tensor R).

  Lemma wamp_app (w1 : list tensor) : forall w2 wl wm D w t1 t2 s1 s2 w', ochain wl w1 D wm -> w < wl -> length t1 = length w1 -> length s1 = length w1 ->
    wamp (w1 ++ w2) w (t1 ++ t2) (s1 ++ s2) w' = nsum wm (fun z => wamp w1 w t1 s1 z *! wamp w2 z t2 s2 w').
  Proof.
    induction w1 as [|W w1 IH]; intros w2 wl wm D w t1 t2 s1 s2 w' O Hw L1 L2.
    - destruct t1; [|discriminate]. destruct s1; [|discriminate]. destruct D; [|contradiction]. cbn in O. subst wm. cbn [app wamp]. symmetry.
      apply (nsum_delta_l (fun z => wamp w2 z t2 s2 w') Hw).
    - destruct t1 as [|v t1]; [discriminate|]. destruct s1 as [|u s1]; [discriminate|]. destruct D as [|d D]; [contradiction|]. destruct O as (k & SW & O).
      cbn [app wamp]. rewrite SW. cbn [nth].
      transitivity (nsum k (fun x => nsum wm (fun z => elt W [w; x; v; u] *! wamp w1 x t1 s1 z *! wamp w2 z t2 s2 w'))).
      + apply nsum_ext. intros x Hx. rewrite (IH w2 k wm D x t1 t2 s1 s2 w' O Hx) by (cbn in L1, L2; lia). rewrite <- nsum_mul_l. apply nsum_ext. intros z _. ring.
      + unfold nsum. rewrite lsum_swap. apply lsum_ext. intros z _. rewrite <- lsum_mul_r. reflexivity.
  Qed.

  Definition mid (ws : list tensor) (x y : tensor) (dm : list nat) (z z' : list nat) : R :=
    lsum (idxs dm) (fun s => lsum (idxs dm) (fun s' =>
      wamp ws (nth 0 z 0) s' s (nth 0 z' 0) *! (elt x (nth 1 z 0 :: s ++ [nth 1 z' 0]) *! cj (elt y (nth 2 z 0 :: s' ++ [nth 2 z' 0]))))).

  Lemma ochain_length (ws : list tensor) : forall wl D wr, ochain wl ws D wr -> length ws = length D.
  Proof. induction ws as [|W ws IH]; intros wl' [|d D] wr O; try contradiction; [reflexivity|]. destruct O as (k & _ & O). cbn. f_equal. exact (IH _ _ _ O). Qed.

  Lemma block_parts (p q : list tensor) (x : tensor) n m k dm a b s1 s2 s3 : shape x = m :: dm ++ [k] -> length dm = n -> length s1 = length p -> length s2 = n ->
    block_amp p x q n a (s1 ++ s2 ++ s3) b = nsum m (fun c => nsum k (fun e => amp p a s1 c *! (elt x (c :: s2 ++ [e]) *! amp q e s3 b))).
  Proof.
    intros Sx Ld L1 L2. unfold block_amp. rewrite Sx. cbn [hd].
    replace (last (m :: dm ++ [k]) 0) with k by (symmetry; rewrite app_comm_cons; apply last_last).
    rewrite <- L1, firstn_app, Nat.sub_diag, firstn_all, firstn_O, app_nil_r.
    rewrite skipn_app, skipn_all, Nat.sub_diag. cbn [app skipn].
    rewrite firstn_app, <- L2, Nat.sub_diag, firstn_all, firstn_O, app_nil_r.
    assert (skipn (length s1 + length s2) (s1 ++ s2 ++ s3) = s3) as ->.
    { rewrite app_assoc, <- app_length, skipn_app, skipn_all, Nat.sub_diag. reflexivity. }
    reflexivity.
  Qed.

  Lemma element_split (lb rb : tensor) (p q : list tensor) (wp wq wmid : list tensor) (x y : tensor) l r m k wl wr wm wk dm n :
    shape lb = [wl; l; l] -> shape rb = [wr; r; r] -> chain l p m -> chain k q r -> ochain wl wp (phys p) wm -> ochain wm wmid dm wk -> ochain wk wq (phys q) wr ->
    length dm = n -> shape x = m :: dm ++ [k] -> shape y = m :: dm ++ [k] ->
    matrix_element lb rb (phys p ++ dm ++ phys q) (wp ++ wmid ++ wq) (block_amp p y q n) (block_amp p x q n) =
    lsum (idxs [wm; m; m]) (fun z => lsum (idxs [wk; k; k]) (fun z' => left_env lb p wp z *! (mid wmid x y dm z z' *! right_env rb q wq z'))).
  Proof.
    intros Sl Sr Cp Cq Op Om Oq Ld Sx Sy. unfold matrix_element.
    assert (forall X Y, valid X [wl; l; l] -> valid Y [wr; r; r] ->
      lsum (idxs (phys p ++ dm ++ phys q)) (fun sg => lsum (idxs (phys p ++ dm ++ phys q)) (fun ta =>
        wamp (wp ++ wmid ++ wq) (nth 0 X 0) ta sg (nth 0 Y 0) *! (block_amp p x q n (nth 1 X 0) sg (nth 1 Y 0) *! cj (block_amp p y q n (nth 2 X 0) ta (nth 2 Y 0))))) =
      lsum (idxs [wm; m; m]) (fun z => lsum (idxs [wk; k; k]) (fun z' => triple p wp p X z *! (mid wmid x y dm z z' *! triple q wq q z' Y)))) as K.
    { intros X Y VX VY. destruct (valid3 VX) as (w & a & a' & -> & Hw & Ha & Ha'). destruct (valid3 VY) as (w' & b & b' & -> & Hw' & Hb & Hb'). cbn [nth].
      set (T := fun sg1 ta1 s s' sg3 ta3 => lsum (idxs [wm; m; m]) (fun z => lsum (idxs [wk; k; k]) (fun z' =>
         (wamp wp w ta1 sg1 (nth 0 z 0) *! (amp p a sg1 (nth 1 z 0) *! cj (amp p a' ta1 (nth 2 z 0)))) *!
         ((wamp wmid (nth 0 z 0) s' s (nth 0 z' 0) *! (elt x (nth 1 z 0 :: s ++ [nth 1 z' 0]) *! cj (elt y (nth 2 z 0 :: s' ++ [nth 2 z' 0])))) *!
          (wamp wq (nth 0 z' 0) ta3 sg3 w' *! (amp q (nth 1 z' 0) sg3 b *! cj (amp q (nth 2 z' 0) ta3 b'))))))).
      transitivity (lsum (idxs (phys p)) (fun sg1 => lsum (idxs dm) (fun s => lsum (idxs (phys q)) (fun sg3 =>
        lsum (idxs (phys p)) (fun ta1 => lsum (idxs dm) (fun s' => lsum (idxs (phys q)) (fun ta3 => T sg1 ta1 s s' sg3 ta3))))))).
      - rewrite lsum_idxs_app. apply lsum_ext. intros sg1 H1. rewrite lsum_idxs_app. apply lsum_ext. intros s H2. apply lsum_ext. intros sg3 H3.
        rewrite lsum_idxs_app. apply lsum_ext. intros ta1 H4. rewrite lsum_idxs_app. apply lsum_ext. intros s' H5. apply lsum_ext. intros ta3 H6.
        apply In_idxs in H1, H2, H3, H4, H5, H6. apply valid_length in H1, H2, H3, H4, H5, H6. rewrite phys_length in H1, H3, H4, H6.
        rewrite (block_parts q a b sg3 Sx Ld) by congruence. rewrite (block_parts q a' b' ta3 Sy Ld) by congruence.
        pose proof (ochain_length Op) as L1. pose proof (ochain_length Om) as L2. rewrite phys_length in L1.
        rewrite (wamp_app (wmid ++ wq) (s' ++ ta3) (s ++ sg3) w' Op Hw) by congruence.
        transitivity (nsum wm (fun z0 => nsum wk (fun z0' => wamp wp w ta1 sg1 z0 *! (wamp wmid z0 s' s z0' *! wamp wq z0' ta3 sg3 w'))) *!
          (nsum m (fun c => nsum k (fun e => amp p a sg1 c *! (elt x (c :: s ++ [e]) *! amp q e sg3 b))) *!
           cj (nsum m (fun c => nsum k (fun e => amp p a' ta1 c *! (elt y (c :: s' ++ [e]) *! amp q e ta3 b')))))).
        { f_equal. apply nsum_ext. intros z0 Hz0. rewrite (wamp_app wq ta3 sg3 w' Om Hz0) by congruence. rewrite <- nsum_mul_l. reflexivity. }
        unfold T. rewrite lsum_idxs3. rewrite <- nsum_mul_r. apply nsum_ext. intros z0 _.
        transitivity (nsum m (fun z1 => nsum m (fun z2 => nsum wk (fun z0' => nsum k (fun z1' => nsum k (fun z2' =>
          wamp wp w ta1 sg1 z0 *! (wamp wmid z0 s' s z0' *! wamp wq z0' ta3 sg3 w') *!
          ((amp p a sg1 z1 *! (elt x (z1 :: s ++ [z1']) *! amp q z1' sg3 b)) *! cj (amp p a' ta1 z2 *! (elt y (z2 :: s' ++ [z2']) *! amp q z2' ta3 b')))))))) ).
        + set (A := nsum wk _). rewrite cj_nsum. rewrite <- nsum_mul_r, <- nsum_mul_l. apply nsum_ext. intros z1 _. rewrite <- !nsum_mul_l. apply nsum_ext. intros z2 _.
          rewrite cj_nsum. unfold A. rewrite <- nsum_mul_r. apply nsum_ext. intros z0' _. rewrite <- nsum_mul_r, <- nsum_mul_l. apply nsum_ext. intros z1' _.
          rewrite <- !nsum_mul_l. reflexivity.
        + apply nsum_ext. intros z1 _. apply nsum_ext. intros z2 _. rewrite lsum_idxs3. apply nsum_ext. intros z0' _. apply nsum_ext. intros z1' _. apply nsum_ext. intros z2' _.
          cbn [nth]. rewrite !cj_mul. ring.
      - rewrite lsum_pair3. unfold T.
        rewrite (fact3 (list_prod (idxs (phys p)) (idxs (phys p))) (list_prod (idxs dm) (idxs dm)) (list_prod (idxs (phys q)) (idxs (phys q))) (idxs [wm; m; m]) (idxs [wk; k; k])
          (fun z i => wamp wp w (snd i) (fst i) (nth 0 z 0) *! (amp p a (fst i) (nth 1 z 0) *! cj (amp p a' (snd i) (nth 2 z 0))))
          (fun z z' j => wamp wmid (nth 0 z 0) (snd j) (fst j) (nth 0 z' 0) *! (elt x (nth 1 z 0 :: fst j ++ [nth 1 z' 0]) *! cj (elt y (nth 2 z 0 :: snd j ++ [nth 2 z' 0]))))
          (fun z' k => wamp wq (nth 0 z' 0) (snd k) (fst k) w' *! (amp q (nth 1 z' 0) (fst k) b *! cj (amp q (nth 2 z' 0) (snd k) b')))).
        apply lsum_ext. intros z _. apply lsum_ext. intros z' _. f_equal; [|f_equal].
        + unfold triple. cbn [nth]. symmetry. apply (lsum_pair (idxs (phys p)) (idxs (phys p)) (fun sg ta => wamp wp w ta sg (nth 0 z 0) *! (amp p a sg (nth 1 z 0) *! cj (amp p a' ta (nth 2 z 0))))).
        + unfold mid. symmetry. apply (lsum_pair (idxs dm) (idxs dm) (fun s s' => wamp wmid (nth 0 z 0) s' s (nth 0 z' 0) *! (elt x (nth 1 z 0 :: s ++ [nth 1 z' 0]) *! cj (elt y (nth 2 z 0 :: s' ++ [nth 2 z' 0]))))).
        + unfold triple. cbn [nth]. symmetry. apply (lsum_pair (idxs (phys q)) (idxs (phys q)) (fun sg ta => wamp wq (nth 0 z' 0) ta sg w' *! (amp q (nth 1 z' 0) sg b *! cj (amp q (nth 2 z' 0) ta b')))). }
    rewrite Sl, Sr.
    transitivity (lsum (idxs [wl; l; l]) (fun X => lsum (idxs [wr; r; r]) (fun Y => lsum (idxs [wm; m; m]) (fun z => lsum (idxs [wk; k; k]) (fun z' =>
      (elt lb X *! triple p wp p X z) *! (mid wmid x y dm z z' *! (triple q wq q z' Y *! elt rb Y))))))).
    - apply lsum_ext. intros X HX. apply lsum_ext. intros Y HY. rewrite (K X Y (in_idxs3 HX) (in_idxs3 HY)), <- lsum_mul_l. apply lsum_ext. intros z _.
      rewrite <- lsum_mul_l. apply lsum_ext. intros z' _. ring.
    - rewrite lsum_swap22. apply lsum_ext. intros z _. apply lsum_ext. intros z' _. unfold left_env, right_env. rewrite Sl, Sr.
      rewrite <- lsum_mul_r. apply lsum_ext. intros X _. rewrite <- !lsum_mul_l. reflexivity.
  Qed.
End Block.
