(** * DmrgTriple: ket, operator and bra layer by layer *)
From Coq Require Import List ZArith Lia.
From Verif Require Import Prelude Res Algebra Tensor TensorFacts ListFacts MpsSpec MpsState MpsDouble DmrgSpec.
Import ListNotations.
Set Implicit Arguments.
Unset Strict Implicit.
Local Open Scope nat_scope.
Local Open Scope csr_scope.

Section Triple.
  Context {R : cjr}.
  Add Ring Rring : (rsr R).
  Notation tensor := (Tensor.tensor R).

  Lemma lsum_idxs3 a b c (f : list nat -> R) : lsum (idxs [a; b; c]) f = nsum a (fun i => nsum b (fun j => nsum c (fun k => f [i; j; k]))).
  Proof.
    rewrite lsum_idxs_cons. apply nsum_ext. intros i _. rewrite lsum_idxs_cons. apply nsum_ext. intros j _. rewrite lsum_idxs_cons. apply nsum_ext. intros k _.
    cbn [idxs]. rewrite lsum_cons, lsum_nil. ring.
  Qed.
  Lemma valid3 a b c x : valid x [a; b; c] -> exists i j k, x = [i; j; k] /\ i < a /\ j < b /\ k < c.
  Proof.
    intros V. inversion V as [|i ? x1 ? Hi V1]; subst. inversion V1 as [|j ? x2 ? Hj V2]; subst. inversion V2 as [|k ? x3 ? Hk V3]; subst.
    inversion V3; subst. exists i, j, k. auto.
  Qed.
  Lemma mk_valid3 a b c i j k : i < a -> j < b -> k < c -> valid [i; j; k] [a; b; c].
  Proof. intros. repeat constructor; assumption. Qed.
  Lemma in_idxs3 a b c x : In x (idxs [a; b; c]) -> valid x [a; b; c].
  Proof. apply In_idxs. Qed.

  Definition tri (t W u : tensor) (x z : list nat) : R :=
    nsum (nth 1 (shape t) 0) (fun s => nsum (nth 1 (shape u) 0) (fun s' =>
      elt W [nth 0 x 0; nth 0 z 0; s'; s] *! (elt t [nth 1 x 0; s; nth 1 z 0] *! cj (elt u [nth 2 x 0; s'; nth 2 z 0])))).

  Lemma triple_nil x y : triple (R := R) [] [] [] x y =
    (if nth 0 x 0 =? nth 0 y 0 then r1 else r0) *! ((if nth 1 x 0 =? nth 1 y 0 then r1 else r0) *! (if nth 2 x 0 =? nth 2 y 0 then r1 else r0)).
  Proof.
    unfold triple. cbn [phys map idxs]. rewrite !lsum_cons, !lsum_nil. cbn [wamp amp]. destruct (nth 2 x 0 =? nth 2 y 0); rewrite ?cj_1, ?cj_0; ring.
  Qed.
  Lemma delta3 wk k k' x (f : list nat -> R) : valid x [wk; k; k'] ->
    lsum (idxs [wk; k; k']) (fun z => triple [] [] [] x z *! f z) = f x.
  Proof.
    intros V. destruct (valid3 V) as (i & j & m & -> & Hi & Hj & Hm). rewrite lsum_idxs3.
    transitivity (nsum wk (fun i' => (if i =? i' then r1 else r0) *! nsum k (fun j' => (if j =? j' then r1 else r0) *! nsum k' (fun m' => (if m =? m' then r1 else r0) *! f [i'; j'; m'])))).
    - apply nsum_ext. intros i' _. rewrite <- nsum_mul_l. apply nsum_ext. intros j' _. rewrite <- !nsum_mul_l. apply nsum_ext. intros m' _.
      rewrite triple_nil. cbn [nth]. ring.
    - rewrite (nsum_delta_l (fun i' => nsum k (fun j' => (if j =? j' then r1 else r0) *! nsum k' (fun m' => (if m =? m' then r1 else r0) *! f [i'; j'; m']))) Hi).
      rewrite (nsum_delta_l (fun j' => nsum k' (fun m' => (if m =? m' then r1 else r0) *! f [i; j'; m'])) Hj).
      apply (nsum_delta_l (fun m' => f [i; j; m']) Hm).
  Qed.
  Lemma delta3_r wk k k' y (f : list nat -> R) : valid y [wk; k; k'] ->
    lsum (idxs [wk; k; k']) (fun z => f z *! triple [] [] [] z y) = f y.
  Proof.
    intros V. rewrite <- (delta3 f V) at 1. apply lsum_ext. intros z _. rewrite !triple_nil.
    rewrite (Nat.eqb_sym (nth 0 z 0)), (Nat.eqb_sym (nth 1 z 0)), (Nat.eqb_sym (nth 2 z 0)). ring.
  Qed.

  Lemma triple_cons (t W u : tensor) ts ws us l d k wl wk e e' l' d' k' x y :
    shape t = [l; d; k] -> shape W = [wl; wk; e; e'] -> shape u = [l'; d'; k'] ->
    triple (t :: ts) (W :: ws) (u :: us) x y = lsum (idxs [wk; k; k']) (fun z => tri t W u x z *! triple ts ws us z y).
  Proof.
    intros St SW Su. unfold triple. cbn [phys map]. rewrite St, Su. cbn [nth]. fold (phys ts) (phys us). set (D := phys ts). set (D' := phys us).
    set (X := fun s s' sg ta z => elt W [nth 0 x 0; nth 0 z 0; s'; s] *! (elt t [nth 1 x 0; s; nth 1 z 0] *! cj (elt u [nth 2 x 0; s'; nth 2 z 0])) *!
      (wamp ws (nth 0 z 0) ta sg (nth 0 y 0) *! (amp ts (nth 1 z 0) sg (nth 1 y 0) *! cj (amp us (nth 2 z 0) ta (nth 2 y 0))))).
    transitivity (lsum (seq 0 d) (fun s => lsum (seq 0 d') (fun s' => lsum (idxs D) (fun sg => lsum (idxs D') (fun ta =>
      lsum (idxs [wk; k; k']) (fun z => X s s' sg ta z)))))).
    - rewrite lsum_idxs_cons. unfold nsum at 1. apply lsum_ext. intros s _.
      rewrite (lsum_swap (seq 0 d') (idxs D)). apply lsum_ext. intros sg _. rewrite lsum_idxs_cons. unfold nsum at 1. apply lsum_ext. intros s' _.
      apply lsum_ext. intros ta _. cbn [wamp amp]. rewrite St, SW, Su. cbn [nth]. rewrite lsum_idxs3, cj_nsum.
      rewrite <- nsum_mul_r. apply nsum_ext. intros i _. rewrite <- nsum_mul_r, <- nsum_mul_l. apply nsum_ext. intros j _.
      rewrite <- !nsum_mul_l. apply nsum_ext. intros m _. unfold X. cbn [nth]. rewrite cj_mul. ring.
    - transitivity (lsum (seq 0 d) (fun s => lsum (seq 0 d') (fun s' => lsum (idxs [wk; k; k']) (fun z =>
        lsum (idxs D) (fun sg => lsum (idxs D') (fun ta => X s s' sg ta z)))))).
      + apply lsum_ext. intros s _. apply lsum_ext. intros s' _. symmetry. apply lsum_swap12.
      + transitivity (lsum (idxs [wk; k; k']) (fun z => lsum (seq 0 d) (fun s => lsum (seq 0 d') (fun s' =>
          lsum (idxs D) (fun sg => lsum (idxs D') (fun ta => X s s' sg ta z)))))).
        * symmetry. apply lsum_swap12.
        * apply lsum_ext. intros z _. unfold tri. rewrite St, Su. cbn [nth]. unfold nsum. rewrite <- lsum_mul_r. apply lsum_ext. intros s _.
          rewrite <- lsum_mul_r. apply lsum_ext. intros s' _. rewrite <- lsum_mul_l. apply lsum_ext. intros sg _. rewrite <- lsum_mul_l. reflexivity.
  Qed.

  (** the three layers between the bonds [x] and [y] *)
  Fixpoint layers (wl l l' : nat) (ts ws us : list tensor) (wr r r' : nat) : Prop :=
    match ts, ws, us with
    | [], [], [] => wl = wr /\ l = r /\ l' = r'
    | t :: ts, W :: ws, u :: us => exists d k wk k', shape t = [l; d; k] /\ shape W = [wl; wk; d; d] /\ shape u = [l'; d; k'] /\
        layers wk k k' ts ws us wr r r'
    | _, _, _ => False
    end.
  Lemma layers_same wl l (ts ws : list tensor) r wr : chain l ts r -> ochain wl ws (phys ts) wr -> layers wl l l ts ws ts wr r r.
  Proof.
    revert wl l ws. induction ts as [|t ts IH]; intros wl l ws C O; destruct ws as [|W ws]; cbn in C, O |- *; try contradiction; auto.
    destruct C as (d & k & St & C). destruct O as (wk & SW & O). rewrite St in SW. exists d, k, wk, k. auto.
  Qed.

  Lemma triple_app (ts1 : list tensor) : forall ws1 us1 ts2 ws2 us2 wl l l' wm m m' x y,
    layers wl l l' ts1 ws1 us1 wm m m' -> valid x [wl; l; l'] ->
    triple (ts1 ++ ts2) (ws1 ++ ws2) (us1 ++ us2) x y = lsum (idxs [wm; m; m']) (fun z => triple ts1 ws1 us1 x z *! triple ts2 ws2 us2 z y).
  Proof.
    induction ts1 as [|t ts1 IH]; intros ws1 us1 ts2 ws2 us2 wl l l' wm m m' x y L V; destruct ws1 as [|W ws1]; destruct us1 as [|u us1]; cbn in L; try contradiction.
    - destruct L as (<- & <- & <-). cbn [app]. symmetry. apply (delta3 (fun z => triple ts2 ws2 us2 z y) V).
    - destruct L as (d & k & wk & k' & St & SW & Su & L). cbn [app]. rewrite (triple_cons _ _ _ _ _ St SW Su).
      transitivity (lsum (idxs [wk; k; k']) (fun z => lsum (idxs [wm; m; m']) (fun z' => tri t W u x z *! triple ts1 ws1 us1 z z' *! triple ts2 ws2 us2 z' y))).
      + apply lsum_ext. intros z Hz. rewrite (IH ws1 us1 ts2 ws2 us2 wk k k' wm m m' z y L (in_idxs3 Hz)), <- lsum_mul_l. apply lsum_ext. intros z' _. ring.
      + rewrite lsum_swap. apply lsum_ext. intros z' _. rewrite (triple_cons _ _ _ _ _ St SW Su), <- lsum_mul_r. reflexivity.
  Qed.
  Lemma triple_one (t W u : tensor) l d k wl wk e e' l' d' k' x y : shape t = [l; d; k] -> shape W = [wl; wk; e; e'] -> shape u = [l'; d'; k'] ->
    valid y [wk; k; k'] -> triple [t] [W] [u] x y = tri t W u x y.
  Proof. intros St SW Su V. rewrite (triple_cons _ _ _ _ _ St SW Su). apply (delta3_r (fun z => tri t W u x z) V). Qed.

  (** ** environments *)
  Lemma left_env_nil (lb : tensor) wl l y : shape lb = [wl; l; l] -> valid y [wl; l; l] -> left_env lb [] [] y = elt lb y.
  Proof. intros S V. unfold left_env. rewrite S. apply (delta3_r (fun z => elt lb z) V). Qed.
  Lemma right_env_nil (rb : tensor) wl l x : shape rb = [wl; l; l] -> valid x [wl; l; l] -> right_env rb [] [] x = elt rb x.
  Proof. intros S V. unfold right_env. rewrite S. apply (delta3 (fun z => elt rb z) V). Qed.
  Lemma left_env_snoc (lb : tensor) wl l ts ws wm m (t W : tensor) d k wk y :
    shape lb = [wl; l; l] -> chain l ts m -> ochain wl ws (phys ts) wm -> shape t = [m; d; k] -> shape W = [wm; wk; d; d] -> valid y [wk; k; k] ->
    left_env lb (ts ++ [t]) (ws ++ [W]) y = lsum (idxs [wm; m; m]) (fun z => left_env lb ts ws z *! tri t W t z y).
  Proof.
    intros Sl C O St SW V. unfold left_env. rewrite Sl.
    transitivity (lsum (idxs [wl; l; l]) (fun x => lsum (idxs [wm; m; m]) (fun z => elt lb x *! triple ts ws ts x z *! tri t W t z y))).
    - apply lsum_ext. intros x Hx. rewrite (triple_app [t] [W] [t] y (layers_same C O) (in_idxs3 Hx)), <- lsum_mul_l. apply lsum_ext. intros z _.
      rewrite (triple_one z St SW St V). ring.
    - rewrite lsum_swap. apply lsum_ext. intros z _. rewrite <- lsum_mul_r. reflexivity.
  Qed.
  Lemma right_env_cons (rb : tensor) ts ws (t W : tensor) wl l wk d k e e' x : shape t = [l; d; k] -> shape W = [wl; wk; e; e'] ->
    right_env rb (t :: ts) (W :: ws) x = lsum (idxs [wk; k; k]) (fun z => tri t W t x z *! right_env rb ts ws z).
  Proof.
    intros St SW. unfold right_env.
    transitivity (lsum (idxs (shape rb)) (fun y => lsum (idxs [wk; k; k]) (fun z => tri t W t x z *! (triple ts ws ts z y *! elt rb y)))).
    - apply lsum_ext. intros y Hy. rewrite (triple_cons _ _ _ _ _ St SW St), <- lsum_mul_r. apply lsum_ext. intros z _. ring.
    - rewrite lsum_swap. apply lsum_ext. intros z _. rewrite <- lsum_mul_l. reflexivity.
  Qed.
End Triple.
