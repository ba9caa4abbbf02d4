(** * MpsInfNcon: the [ncon] calls of MpsInf.v, evaluated with the theorem about [ncon] (C16) *)
From Coq Require Import List ZArith Permutation Sorting.Sorted.
From Verif Require Import Prelude Res Algebra Tensor TensorFacts Einsum Ncon NconFacts NconSpec NconTop NconCheck NconMain
  BlockSparse Backends Mps MpsNcon.
Import ListNotations.
Set Implicit Arguments.
Unset Strict Implicit.
Local Open Scope nat_scope.
Local Open Scope csr_scope.

Section NconCalls.
  Context {R : cjr}.
  Add Ring Rring : (rsr R).
  Variable iter : list Z -> list Z.
  Hypothesis iter_perm : forall l, Permutation (iter l) l.
  Notation tensor := (Tensor.tensor R).
  Notation ncon_z := (@ncon_z R iter).

  Ltac labels_in := intros ? Hll; cbn in Hll; repeat (destruct Hll as [<- | Hll]); try contradiction.
  Ltac run D O C V :=
    match goal with |- exists t, Mps.ncon_z iter ?ts ?ns = Ok t /\ _ =>
      let LAB := fresh "LAB" in let t := fresh "t" in let E := fresh "E" in let S0 := fresh "S0" in
      assert (forall l, In l (List.concat (map (map LInt) ns)) -> label_ok l) as LAB
        by (labels_in; apply label_ok_spec; repeat split; discriminate);
      destruct (@ncon_z_value R iter iter_perm (asn D) ts ns (map LInt O) (map LInt C)) as (t & E & S0 & V);
      [ split; [reflexivity|]; intros ? Hxx; cbn in Hxx; repeat (destruct Hxx as [<- | Hxx]); try contradiction;
        unfold fits; cbn; assumption
      | labels_in; try (left; split; [apply is_out_Open|]; reflexivity); right; (split; [apply is_out_not|]; reflexivity)
      | discriminate
      | exact LAB
      | apply check_con_spec; [exact LAB | reflexivity]
      | split; [apply check_out_spec; [exact LAB | reflexivity]|]; repeat constructor; discriminate
      | exists t; split; [exact E|]; split; [exact S0|] ]
    end.
  Ltac use V A :=
      let H := fresh "H" in
      pose proof (V (asn A)) as H; cbn [map asn find fst snd Z.eqb Pos.eqb] in H; cbn -[nsum] in H; rewrite H;
      [ repeat (apply nsum_ext; intros); unfold lprod; cbn; unfold fval, upd; cbn; ring
      | intros ? Hll; cbn in Hll; repeat (destruct Hll as [<- | Hll]); try contradiction; cbn; assumption ].

  Lemma ncon_sl (x y : tensor) p k q : shape x = [p; k] -> shape y = [k; q] ->
    exists t, ncon_z [x; y] [[-2; 1]; [1; -1]]%Z = Ok t /\ shape t = [q; p] /\
      forall i j, i < q -> j < p -> elt t [i; j] = nsum k (fun l => elt x [j; l] *! elt y [l; i]).
  Proof.
    intros Hx Hy. run [((-2)%Z, p); (1%Z, k); ((-1)%Z, q)] [-1; -2]%Z [1]%Z VAL.
    intros i j Hi Hj. use VAL [((-1)%Z, i); ((-2)%Z, j)].
  Qed.
  Lemma ncon_il (x y : tensor) q k p : shape x = [q; k] -> shape y = [p; k] ->
    exists t, ncon_z [x; y] [[-2; 1]; [-1; 1]]%Z = Ok t /\ shape t = [p; q] /\
      forall i j, i < p -> j < q -> elt t [i; j] = nsum k (fun l => elt x [j; l] *! elt y [i; l]).
  Proof.
    intros Hx Hy. run [((-2)%Z, q); (1%Z, k); ((-1)%Z, p)] [-1; -2]%Z [1]%Z VAL.
    intros i j Hi Hj. use VAL [((-1)%Z, i); ((-2)%Z, j)].
  Qed.
  Lemma ncon_ir (x y : tensor) q k p : shape x = [p; k] -> shape y = [q; k] ->
    exists t, ncon_z [x; y] [[-1; 1]; [-2; 1]]%Z = Ok t /\ shape t = [p; q] /\
      forall i j, i < p -> j < q -> elt t [i; j] = nsum k (fun l => elt x [i; l] *! elt y [j; l]).
  Proof.
    intros Hx Hy. run [((-2)%Z, q); (1%Z, k); ((-1)%Z, p)] [-1; -2]%Z [1]%Z VAL.
    intros i j Hi Hj. use VAL [((-1)%Z, i); ((-2)%Z, j)].
  Qed.
  Lemma ncon_first (a b c t : tensor) p k1 k2 k3 d n : shape a = [p; k1] -> shape b = [k1; k2] -> shape c = [k2; k3] -> shape t = [k3; d; n] ->
    exists y, ncon_z [a; b; c; t] [[-1; 1]; [1; 2]; [2; 3]; [3; -2; -3]]%Z = Ok y /\ shape y = [p; d; n] /\
      forall i s j, i < p -> s < d -> j < n -> elt y [i; s; j] =
        nsum k1 (fun x => nsum k2 (fun y => nsum k3 (fun z => elt a [i; x] *! (elt b [x; y] *! (elt c [y; z] *! elt t [z; s; j]))))).
  Proof.
    intros Ha Hb Hc Ht. run [((-1)%Z, p); (1%Z, k1); (2%Z, k2); (3%Z, k3); ((-2)%Z, d); ((-3)%Z, n)] [-1; -2; -3]%Z [1; 2; 3]%Z VAL.
    intros i s j Hi Hs Hj. use VAL [((-1)%Z, i); ((-2)%Z, s); ((-3)%Z, j)].
  Qed.
  Lemma ncon_last (t a b c : tensor) m d k1 k2 k3 n : shape t = [m; d; k1] -> shape a = [k1; k2] -> shape b = [k2; k3] -> shape c = [k3; n] ->
    exists y, ncon_z [t; a; b; c] [[-1; -2; 1]; [1; 2]; [2; 3]; [3; -3]]%Z = Ok y /\ shape y = [m; d; n] /\
      forall i s j, i < m -> s < d -> j < n -> elt y [i; s; j] =
        nsum k1 (fun x => nsum k2 (fun y => nsum k3 (fun z => elt t [i; s; x] *! (elt a [x; y] *! (elt b [y; z] *! elt c [z; j]))))).
  Proof.
    intros Ht Ha Hb Hc. run [((-1)%Z, m); (1%Z, k1); (2%Z, k2); (3%Z, k3); ((-2)%Z, d); ((-3)%Z, n)] [-1; -2; -3]%Z [1; 2; 3]%Z VAL.
    intros i s j Hi Hs Hj. use VAL [((-1)%Z, i); ((-2)%Z, s); ((-3)%Z, j)].
  Qed.
End NconCalls.
