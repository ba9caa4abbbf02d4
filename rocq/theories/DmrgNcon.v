(** * DmrgNcon: the [ncon] calls of Dmrg.v, evaluated with the theorem about [ncon] (C16) *)
From Coq Require Import List ZArith Permutation Sorting.Sorted.
From Verif Require Import Prelude Res Algebra Tensor TensorFacts Einsum Ncon NconFacts NconSpec NconTop NconCheck NconMain
  BlockSparse Backends Mps MpsNcon Dmrg.
Import ListNotations.
Set Implicit Arguments.
Unset Strict Implicit.
Local Open Scope nat_scope.
Local Open Scope csr_scope.

Section NconCalls.
  Context {R : cjr}.
  Add Ring Rring : (rsr R).
  Variable iter : list Z -> list Z.
  Hypothesis iter_perm : forall l, Permutation (iter l) l.
  Notation tensor := (Tensor.tensor R).

  Ltac labels_in := intros ? Hll; cbn in Hll; repeat (destruct Hll as [<- | Hll]); try contradiction.
  Ltac run D O C V :=
    match goal with |- exists t, Mps.ncon_z iter ?ts ?ns = Ok t /\ _ =>
      let LAB := fresh "LAB" in let t := fresh "t" in let E := fresh "E" in let S0 := fresh "S0" in
      assert (forall l, In l (List.concat (map (map LInt) ns)) -> label_ok l) as LAB
        by (labels_in; apply label_ok_spec; repeat split; discriminate);
      destruct (@ncon_z_value R iter iter_perm (asn D) ts ns (map LInt O) (map LInt C)) as (t & E & S0 & V);
      [ split; [reflexivity|]; intros ? Hxx; cbn in Hxx; repeat (destruct Hxx as [<- | Hxx]); try contradiction;
        unfold fits; cbn; assumption
      | labels_in; try (left; split; [apply is_out_Open|]; reflexivity); right; (split; [apply is_out_not|]; reflexivity)
      | discriminate
      | exact LAB
      | apply check_con_spec; [exact LAB | reflexivity]
      | split; [apply check_out_spec; [exact LAB | reflexivity]|]; repeat constructor; discriminate
      | exists t; split; [exact E|]; split; [exact S0|] ]
    end.
  Ltac use V A :=
      let H := fresh "H" in
      pose proof (V (asn A)) as H; cbn [map asn find fst snd Z.eqb Pos.eqb] in H; cbn -[nsum] in H; rewrite H;
      [ repeat (apply nsum_ext; intros); unfold lprod; cbn; unfold fval, upd; cbn; ring
      | intros ? Hll; cbn in Hll; repeat (destruct Hll as [<- | Hll]); try contradiction; cbn; assumption ].

  (** 1 = a, 2 = w, 3 = s, 4 = s', 5 = a' *)
  Lemma ncon_left_layer (L t W : tensor) wl wk l d k : shape L = [wl; l; l] -> shape t = [l; d; k] -> shape W = [wl; wk; d; d] ->
    exists y, add_left_layer iter L t W = Ok y /\ shape y = [wk; k; k] /\
      forall x b b', x < wk -> b < k -> b' < k -> elt y [x; b; b'] =
        nsum l (fun a => nsum wl (fun w => nsum d (fun s => nsum d (fun s' => nsum l (fun a' =>
          elt L [w; a; a'] *! (elt t [a; s; b] *! (elt W [w; x; s'; s] *! cj (elt t [a'; s'; b'])))))))).
  Proof.
    intros HL Ht HW. unfold add_left_layer. assert (shape (conj_t t) = [l; d; k]) as Hc by exact Ht.
    run [(1%Z, l); (2%Z, wl); (3%Z, d); (4%Z, d); (5%Z, l); ((-1)%Z, wk); ((-2)%Z, k); ((-3)%Z, k)] [-1; -2; -3]%Z [1; 2; 3; 4; 5]%Z VAL.
    intros x b b' Hx Hb Hb'. use VAL [((-1)%Z, x); ((-2)%Z, b); ((-3)%Z, b')].
  Qed.

  Lemma ncon_right_layer (Rr t W : tensor) wl wk l d k : shape Rr = [wk; k; k] -> shape t = [l; d; k] -> shape W = [wl; wk; d; d] ->
    exists y, add_right_layer iter Rr t W = Ok y /\ shape y = [wl; l; l] /\
      forall w a a', w < wl -> a < l -> a' < l -> elt y [w; a; a'] =
        nsum k (fun b => nsum wk (fun x => nsum d (fun s => nsum d (fun s' => nsum k (fun b' =>
          elt Rr [x; b; b'] *! (elt t [a; s; b] *! (elt W [w; x; s'; s] *! cj (elt t [a'; s'; b'])))))))).
  Proof.
    intros HL Ht HW. unfold add_right_layer. assert (shape (conj_t t) = [l; d; k]) as Hc by exact Ht.
    run [(1%Z, k); (2%Z, wk); (3%Z, d); (4%Z, d); (5%Z, k); ((-1)%Z, wl); ((-2)%Z, l); ((-3)%Z, l)] [-1; -2; -3]%Z [1; 2; 3; 4; 5]%Z VAL.
    intros x b b' Hx Hb Hb'. use VAL [((-1)%Z, x); ((-2)%Z, b); ((-3)%Z, b')].
  Qed.

  Lemma ncon_matvec1 (t L W Rr : tensor) wl wk l d k : shape L = [wl; l; l] -> shape t = [l; d; k] -> shape W = [wl; wk; d; d] -> shape Rr = [wk; k; k] ->
    exists y, single_site_matvec iter t L W Rr = Ok y /\ shape y = [l; d; k] /\
      forall a' s' b', a' < l -> s' < d -> b' < k -> elt y [a'; s'; b'] =
        nsum l (fun a => nsum d (fun s => nsum wl (fun w => nsum k (fun b => nsum wk (fun x =>
          elt L [w; a; a'] *! (elt t [a; s; b] *! (elt W [w; x; s'; s] *! elt Rr [x; b; b']))))))).
  Proof.
    intros HL Ht HW HR. unfold single_site_matvec.
    run [(1%Z, l); (2%Z, d); (3%Z, wl); (4%Z, k); (5%Z, wk); ((-1)%Z, l); ((-2)%Z, d); ((-3)%Z, k)] [-1; -2; -3]%Z [1; 2; 3; 4; 5]%Z VAL.
    intros x b b' Hx Hb Hb'. use VAL [((-1)%Z, x); ((-2)%Z, b); ((-3)%Z, b')].
  Qed.

  Lemma ncon_matvec2 (t L W1 W2 Rr : tensor) wl wm wk l d e k : shape L = [wl; l; l] -> shape t = [l; d; e; k] ->
    shape W1 = [wl; wm; d; d] -> shape W2 = [wm; wk; e; e] -> shape Rr = [wk; k; k] ->
    exists y, two_site_matvec iter t L W1 W2 Rr = Ok y /\ shape y = [l; d; e; k] /\
      forall a' s' u' b', a' < l -> s' < d -> u' < e -> b' < k -> elt y [a'; s'; u'; b'] =
        nsum l (fun a => nsum d (fun s => nsum wl (fun w => nsum wm (fun z => nsum e (fun u => nsum k (fun b => nsum wk (fun x =>
          elt L [w; a; a'] *! (elt t [a; s; u; b] *! (elt W1 [w; z; s'; s] *! (elt W2 [z; x; u'; u] *! elt Rr [x; b; b'])))))))))).
  Proof.
    intros HL Ht HW HW2 HR. unfold two_site_matvec.
    run [(1%Z, l); (2%Z, d); (3%Z, wl); (4%Z, wm); (5%Z, e); (6%Z, k); (7%Z, wk); ((-1)%Z, l); ((-2)%Z, d); ((-3)%Z, e); ((-4)%Z, k)] [-1; -2; -3; -4]%Z [1; 2; 3; 4; 5; 6; 7]%Z VAL.
    intros x u b b' Hx Hu Hb Hb'. use VAL [((-1)%Z, x); ((-2)%Z, u); ((-3)%Z, b); ((-4)%Z, b')].
  Qed.

  Lemma ncon_bond (x y : tensor) l d k e r : shape x = [l; d; k] -> shape y = [k; e; r] ->
    exists t, ncon_z iter [x; y] [[-1; -2; 1]; [1; -3; -4]]%Z = Ok t /\ shape t = [l; d; e; r] /\
      forall a s u b, a < l -> s < d -> u < e -> b < r -> elt t [a; s; u; b] = nsum k (fun c => elt x [a; s; c] *! elt y [c; u; b]).
  Proof.
    intros Hx Hy. run [((-1)%Z, l); ((-2)%Z, d); (1%Z, k); ((-3)%Z, e); ((-4)%Z, r)] [-1; -2; -3; -4]%Z [1]%Z VAL.
    intros a s u b Ha Hs Hu Hb. use VAL [((-1)%Z, a); ((-2)%Z, s); ((-3)%Z, u); ((-4)%Z, b)].
  Qed.

  Lemma ncon_scalar3 (x y : tensor) m n k : shape x = [m; n; k] -> shape y = [m; n; k] ->
    exists t, ncon_z iter [x; y] [[1; 2; 3]; [1; 2; 3]]%Z = Ok t /\ shape t = [] /\
      elt t [] = nsum m (fun a => nsum n (fun b => nsum k (fun c => elt x [a; b; c] *! elt y [a; b; c]))).
  Proof.
    intros Hx Hy. run [(1%Z, m); (2%Z, n); (3%Z, k)] (@nil Z) [1; 2; 3]%Z VAL.
    use VAL (@nil (Z * nat)).
  Qed.
End NconCalls.
