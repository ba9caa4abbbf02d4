(** * DmrgMatvec: the matrix elements of the local operators handed to the eigensolver *)
From Coq Require Import List ZArith Lia Permutation.
From Verif Require Import Prelude Res Algebra Tensor TensorFacts ListFacts MpsSpec MpsState MpsDouble Mps Dmrg DmrgNcon DmrgSpec DmrgTriple DmrgBlock.
Import ListNotations.
Set Implicit Arguments.
Unset Strict Implicit.
Local Open Scope nat_scope.
Local Open Scope csr_scope.

Section Matvec.
  Context {R : cjr}.
  Add Ring Rring : (rsr R).
  Variable iter : list Z -> list Z.
  Hypothesis iter_perm : forall l, Permutation (iter l) l.
  Notation tensor := (Tensor.tensor R).

  Lemma wamp_one (W : tensor) wl wk e e' w s' s x : shape W = [wl; wk; e; e'] -> x < wk -> wamp [W] w [s'] [s] x = elt W [w; x; s'; s].
  Proof. intros SW Hx. cbn [wamp]. rewrite SW. cbn [nth]. apply (nsum_delta_r (fun x0 => elt W [w; x0; s'; s]) Hx). Qed.
  Lemma wamp_two (W1 W2 : tensor) wl wm wk d1 d2 e1 e2 w s' s u' u x : shape W1 = [wl; wm; d1; d2] -> shape W2 = [wm; wk; e1; e2] -> x < wk ->
    wamp [W1; W2] w [s'; u'] [s; u] x = nsum wm (fun z => elt W1 [w; z; s'; s] *! elt W2 [z; x; u'; u]).
  Proof.
    intros S1 S2 Hx. change (wamp [W1; W2] w [s'; u'] [s; u] x) with (nsum (nth 1 (shape W1) 0) (fun z => elt W1 [w; z; s'; s] *! wamp [W2] z [u'] [u] x)).
    rewrite S1. cbn [nth]. apply nsum_ext. intros z _. rewrite (wamp_one z u' u S2 Hx). reflexivity.
  Qed.
  Lemma lsum_nil1 (f : list nat -> R) : lsum (idxs []) f = f [].
  Proof. cbn [idxs]. rewrite lsum_cons, lsum_nil. ring. Qed.

  Lemma valid_inv ix d s : valid ix (d :: s) -> exists i r, ix = i :: r /\ i < d /\ valid r s.
  Proof. intros V. inversion V as [|i ? r ? Hi V1]; subst. exists i, r. auto. Qed.
  Ltac split_ix V := repeat (apply valid_inv in V; destruct V as (? & ? & -> & ? & V)); inversion V; subst.
  Ltac dsum := rewrite lsum_idxs_cons; apply nsum_ext; intros.

  Lemma matvec1_form (L Rr W x y : tensor) wl wk l d k : shape L = [wl; l; l] -> shape Rr = [wk; k; k] -> shape W = [wl; wk; d; d] ->
    shape x = [l; d; k] -> exists v, single_site_matvec iter x L W Rr = Ok v /\ shape v = [l; d; k] /\
    lsum (idxs [l; d; k]) (fun ix => cj (elt y ix) *! elt v ix) =
    lsum (idxs [wl; l; l]) (fun z => lsum (idxs [wk; k; k]) (fun z' => elt L z *! (mid [W] x y [d] z z' *! elt Rr z'))).
  Proof.
    intros SL SR SW Sx. destruct (ncon_matvec1 iter_perm SL Sx SW SR) as (v & E & Sv & V). exists v. split; [exact E|]. split; [exact Sv|].
    set (F := fun ix => match ix with [a'; s'; b'; a; s; w; b; xx] =>
      cj (elt y [a'; s'; b']) *! (elt L [w; a; a'] *! (elt x [a; s; b] *! (elt W [w; xx; s'; s] *! elt Rr [xx; b; b']))) | _ => r0 end).
    set (G := fun ix => match ix with [w; a; a'; xx; b; b'; s; s'] =>
      cj (elt y [a'; s'; b']) *! (elt L [w; a; a'] *! (elt x [a; s; b] *! (elt W [w; xx; s'; s] *! elt Rr [xx; b; b']))) | _ => r0 end).
    transitivity (lsum (idxs [l; d; k; l; d; wl; k; wk]) F).
    - rewrite lsum_idxs3. symmetry. do 3 dsum. rewrite V by assumption. rewrite <- !nsum_mul_l. dsum. rewrite <- !nsum_mul_l. dsum. rewrite <- !nsum_mul_l. dsum.
      rewrite <- !nsum_mul_l. dsum. rewrite <- !nsum_mul_l. dsum. apply lsum_nil1.
    - transitivity (lsum (idxs [wl; l; l; wk; k; k; d; d]) G).
      + change [wl; l; l; wk; k; k; d; d] with (gather 0 [l; d; k; l; d; wl; k; wk] [5; 3; 0; 7; 6; 2; 4; 1]).
        rewrite lsum_idxs_gather.
        * apply lsum_ext. intros ix Hix. apply In_idxs in Hix. split_ix Hix. reflexivity.
        * apply is_perm_intro; [reflexivity | | ].
          -- repeat constructor; cbn; intuition discriminate.
          -- intros i Hi. cbn in Hi |- *. intuition lia.
      + rewrite lsum_idxs3. do 3 dsum. rewrite lsum_idxs3. do 3 dsum. unfold mid. rewrite (lsum_idxs_cons d []), <- nsum_mul_r, <- nsum_mul_l. dsum.
        rewrite lsum_nil1, !(lsum_idxs_cons d []), <- nsum_mul_r, <- nsum_mul_l. apply nsum_ext. intros. rewrite !lsum_nil1. cbn [nth app]. rewrite (wamp_one _ _ _ SW) by assumption. unfold G. ring.
  Qed.

  Lemma matvec2_form (L Rr W1 W2 x y : tensor) wl wm wk l d e k : shape L = [wl; l; l] -> shape Rr = [wk; k; k] -> shape W1 = [wl; wm; d; d] -> shape W2 = [wm; wk; e; e] ->
    shape x = [l; d; e; k] -> exists v, two_site_matvec iter x L W1 W2 Rr = Ok v /\ shape v = [l; d; e; k] /\
    lsum (idxs [l; d; e; k]) (fun ix => cj (elt y ix) *! elt v ix) =
    lsum (idxs [wl; l; l]) (fun z => lsum (idxs [wk; k; k]) (fun z' => elt L z *! (mid [W1; W2] x y [d; e] z z' *! elt Rr z'))).
  Proof.
    intros SL SR S1 S2 Sx. destruct (ncon_matvec2 iter_perm SL Sx S1 S2 SR) as (v & E & Sv & V). exists v. split; [exact E|]. split; [exact Sv|].
    set (F := fun ix => match ix with [a'; s'; u'; b'; a; s; w; z; u; b; xx] =>
      cj (elt y [a'; s'; u'; b']) *! (elt L [w; a; a'] *! (elt x [a; s; u; b] *! (elt W1 [w; z; s'; s] *! (elt W2 [z; xx; u'; u] *! elt Rr [xx; b; b'])))) | _ => r0 end).
    set (G := fun ix => match ix with [w; a; a'; xx; b; b'; s; u; s'; u'; z] =>
      cj (elt y [a'; s'; u'; b']) *! (elt L [w; a; a'] *! (elt x [a; s; u; b] *! (elt W1 [w; z; s'; s] *! (elt W2 [z; xx; u'; u] *! elt Rr [xx; b; b'])))) | _ => r0 end).
    transitivity (lsum (idxs [l; d; e; k; l; d; wl; wm; e; k; wk]) F).
    - symmetry. rewrite lsum_idxs_cons, (lsum_idxs_cons l [d; e; k]). apply nsum_ext. intros a' Ha. rewrite lsum_idxs_cons, (lsum_idxs_cons d [e; k]). apply nsum_ext. intros s' Hs.
      rewrite lsum_idxs_cons, (lsum_idxs_cons e [k]). apply nsum_ext. intros u' Hu. rewrite lsum_idxs_cons, (lsum_idxs_cons k []). apply nsum_ext. intros b' Hb. rewrite lsum_nil1.
      rewrite V by assumption. do 7 (rewrite <- !nsum_mul_l; dsum). apply lsum_nil1.
    - transitivity (lsum (idxs [wl; l; l; wk; k; k; d; e; d; e; wm]) G).
      + change [wl; l; l; wk; k; k; d; e; d; e; wm] with (gather 0 [l; d; e; k; l; d; wl; wm; e; k; wk] [6; 4; 0; 10; 9; 3; 5; 8; 1; 2; 7]).
        rewrite lsum_idxs_gather.
        * apply lsum_ext. intros ix Hix. apply In_idxs in Hix. split_ix Hix. reflexivity.
        * apply is_perm_intro; [reflexivity | | ].
          -- repeat constructor; cbn; intuition discriminate.
          -- intros i Hi. cbn in Hi |- *. intuition lia.
      + rewrite lsum_idxs3. do 3 dsum. rewrite lsum_idxs3. do 3 dsum. unfold mid.
        rewrite (lsum_idxs_cons d [e]), <- nsum_mul_r, <- nsum_mul_l. dsum. rewrite (lsum_idxs_cons e []), <- nsum_mul_r, <- nsum_mul_l. dsum.
        rewrite lsum_nil1, (lsum_idxs_cons d [e]), <- nsum_mul_r, <- nsum_mul_l. dsum. rewrite (lsum_idxs_cons e []), <- nsum_mul_r, <- nsum_mul_l. dsum. rewrite lsum_nil1. cbn [nth app].
        rewrite (wamp_two _ _ _ _ _ S1 S2) by assumption. rewrite <- !nsum_mul_r, <- nsum_mul_l. dsum. rewrite lsum_nil1. unfold G. ring.
  Qed.
End Matvec.
