(** * MpsNcon: the [ncon] calls of Mps.v, evaluated with the theorem about [ncon] (C16) *)
From Coq Require Import List ZArith Permutation Sorting.Sorted.
From Verif Require Import Prelude Res Algebra Tensor TensorFacts Einsum Ncon NconFacts NconSpec NconTop NconCheck NconMain
  BlockSparse Backends Mps.
Import ListNotations.
Set Implicit Arguments.
Unset Strict Implicit.
Local Open Scope nat_scope.
Local Open Scope csr_scope.

Section NconCalls.
  Context {R : cjr}.
  Add Ring Rring : (rsr R).
  Variable iter : list Z -> list Z.
  Hypothesis iter_perm : forall l, Permutation (iter l) l.
  Notation tensor := (Tensor.tensor R).
  Notation ncon_z := (@ncon_z R iter).

  Lemma ncon_z_value (dim : label -> nat) (ts : list tensor) (ns : list (list Z)) (o cl : list label) :
    sized dim ts (map (map LInt) ns) -> standard (map (map LInt) ns) -> ns <> [] ->
    (forall l, In l (List.concat (map (map LInt) ns)) -> label_ok l) ->
    lists_closed (map (map LInt) ns) cl -> out_spec (map (map LInt) ns) None o ->
    exists t, ncon_z ts ns = Ok t /\ shape t = map dim o /\
      forall a, (forall l, In l o -> a l < dim l) -> elt t (map a o) = einsum label_dec dim cl (network ts (map (map LInt) ns)) a.
  Proof.
    intros Hs St Ne Lab Cl Out.
    destruct (@ncon_standard R iter iter_perm dim true ts (map (map LInt) ns) None None o) as (t & E & V); auto.
    - intros H. apply map_eq_nil in H. contradiction.
    - exact I.
    - exists t. split; [exact E|]. destruct V as [V1 V2]. split; [exact V1|]. intros a Ha. apply V2; assumption.
  Qed.

  Definition asn (l : list (Z * nat)) (x : label) : nat :=
    match x with LInt z => match find (fun p => (fst p =? z)%Z) l with Some p => snd p | None => 0 end | _ => 0 end.


  Ltac labels_in := intros ? Hll; cbn in Hll; repeat (destruct Hll as [<- | Hll]); try contradiction.
  Ltac run D O C V :=
    match goal with |- exists t, Mps.ncon_z iter ?ts ?ns = Ok t /\ _ =>
      let LAB := fresh "LAB" in let t := fresh "t" in let E := fresh "E" in let S0 := fresh "S0" in
      assert (forall l, In l (List.concat (map (map LInt) ns)) -> label_ok l) as LAB
        by (labels_in; apply label_ok_spec; repeat split; discriminate);
      destruct (@ncon_z_value (asn D) ts ns (map LInt O) (map LInt C)) as (t & E & S0 & V);
      [ split; [reflexivity|]; intros ? Hxx; cbn in Hxx; repeat (destruct Hxx as [<- | Hxx]); try contradiction;
        unfold fits; cbn; assumption
      | labels_in; try (left; split; [apply is_out_Open|]; reflexivity); right; (split; [apply is_out_not|]; reflexivity)
      | discriminate
      | exact LAB
      | apply check_con_spec; [exact LAB | reflexivity]
      | split; [apply check_out_spec; [exact LAB | reflexivity]|]; repeat constructor; discriminate
      | exists t; split; [exact E|]; split; [exact S0|] ]
    end.
  Ltac use V A :=
      let H := fresh "H" in
      pose proof (V (asn A)) as H; cbn [map asn find fst snd Z.eqb Pos.eqb] in H; cbn -[nsum] in H; rewrite H;
      [ repeat (apply nsum_ext; intros); unfold lprod; cbn; unfold fval, upd; cbn; ring
      | intros ? Hll; cbn in Hll; repeat (destruct Hll as [<- | Hll]); try contradiction; cbn; assumption ].

  Lemma ncon_mm (x y : tensor) m k n : shape x = [m; k] -> shape y = [k; n] ->
    exists t, ncon_z [x; y] [[-1; 1]; [1; -2]]%Z = Ok t /\ shape t = [m; n] /\
      forall i j, i < m -> j < n -> elt t [i; j] = nsum k (fun l => elt x [i; l] *! elt y [l; j]).
  Proof.
    intros Hx Hy. run [((-1)%Z, m); (1%Z, k); ((-2)%Z, n)] [-1; -2]%Z [1]%Z VAL.
    intros i j Hi Hj. use VAL [((-1)%Z, i); ((-2)%Z, j)].
  Qed.

  Lemma ncon_mt (x y : tensor) m k d n : shape x = [m; k] -> shape y = [k; d; n] ->
    exists t, ncon_z [x; y] [[-1; 1]; [1; -2; -3]]%Z = Ok t /\ shape t = [m; d; n] /\
      forall i s j, i < m -> s < d -> j < n -> elt t [i; s; j] = nsum k (fun l => elt x [i; l] *! elt y [l; s; j]).
  Proof.
    intros Hx Hy. run [((-1)%Z, m); (1%Z, k); ((-2)%Z, d); ((-3)%Z, n)] [-1; -2; -3]%Z [1]%Z VAL.
    intros i s j Hi Hs Hj. use VAL [((-1)%Z, i); ((-2)%Z, s); ((-3)%Z, j)].
  Qed.

  Lemma ncon_tm (x y : tensor) m d k n : shape x = [m; d; k] -> shape y = [k; n] ->
    exists t, ncon_z [x; y] [[-1; -2; 1]; [1; -3]]%Z = Ok t /\ shape t = [m; d; n] /\
      forall i s j, i < m -> s < d -> j < n -> elt t [i; s; j] = nsum k (fun l => elt x [i; s; l] *! elt y [l; j]).
  Proof.
    intros Hx Hy. run [((-1)%Z, m); (1%Z, k); ((-2)%Z, d); ((-3)%Z, n)] [-1; -2; -3]%Z [1]%Z VAL.
    intros i s j Hi Hs Hj. use VAL [((-1)%Z, i); ((-2)%Z, s); ((-3)%Z, j)].
  Qed.

  Lemma ncon_gate1 (g x : tensor) m d d' n : shape g = [d'; d] -> shape x = [m; d; n] ->
    exists t, ncon_z [g; x] [[-2; 1]; [-1; 1; -3]]%Z = Ok t /\ shape t = [m; d'; n] /\
      forall i s j, i < m -> s < d' -> j < n -> elt t [i; s; j] = nsum d (fun l => elt g [s; l] *! elt x [i; l; j]).
  Proof.
    intros Hx Hy. run [((-1)%Z, m); (1%Z, d); ((-2)%Z, d'); ((-3)%Z, n)] [-1; -2; -3]%Z [1]%Z VAL.
    intros i s j Hi Hs Hj. use VAL [((-1)%Z, i); ((-2)%Z, s); ((-3)%Z, j)].
  Qed.

  Lemma ncon_gate2 (x y g : tensor) l d1 k d2 r e1 e2 :
    shape x = [l; d1; k] -> shape y = [k; d2; r] -> shape g = [e1; e2; d1; d2] ->
    exists t, ncon_z [x; y; g] [[-1; 1; 2]; [2; 3; -4]; [-2; -3; 1; 3]]%Z = Ok t /\ shape t = [l; e1; e2; r] /\
      forall a s1 s2 b, a < l -> s1 < e1 -> s2 < e2 -> b < r -> elt t [a; s1; s2; b] =
        nsum d1 (fun u => nsum k (fun c => nsum d2 (fun v => elt g [s1; s2; u; v] *! (elt x [a; u; c] *! elt y [c; v; b])))).
  Proof.
    intros Hx Hy Hg.
    run [((-1)%Z, l); (1%Z, d1); (2%Z, k); (3%Z, d2); ((-2)%Z, e1); ((-3)%Z, e2); ((-4)%Z, r)] [-1; -2; -3; -4]%Z [1; 2; 3]%Z VAL.
    intros a s1 s2 b Ha H1 H2 Hb. use VAL [((-1)%Z, a); ((-2)%Z, s1); ((-3)%Z, s2); ((-4)%Z, b)].
  Qed.

  Lemma ncon_left_transfer (x l y : tensor) m d n m' n' : shape x = [m; d; n] -> shape l = [m; m'] -> shape y = [m'; d; n'] ->
    exists t, left_transfer_operator iter x l y = Ok t /\ shape t = [n; n'] /\
      forall i j, i < n -> j < n' -> elt t [i; j] =
        nsum m (fun a => nsum d (fun s => nsum m' (fun b => elt l [a; b] *! (elt x [a; s; i] *! elt y [b; s; j])))).
  Proof.
    intros Hx Hl Hy. unfold left_transfer_operator.
    run [(1%Z, m); (2%Z, d); (3%Z, m'); ((-1)%Z, n); ((-2)%Z, n')] [-1; -2]%Z [1; 2; 3]%Z VAL.
    intros i j Hi Hj. use VAL [((-1)%Z, i); ((-2)%Z, j)].
  Qed.
  Lemma ncon_right_transfer (x r y : tensor) m d n m' n' : shape x = [m; d; n] -> shape r = [n; n'] -> shape y = [m'; d; n'] ->
    exists t, right_transfer_operator iter x r y = Ok t /\ shape t = [m; m'] /\
      forall i j, i < m -> j < m' -> elt t [i; j] =
        nsum n (fun a => nsum d (fun s => nsum n' (fun b => elt r [a; b] *! (elt x [i; s; a] *! elt y [j; s; b])))).
  Proof.
    intros Hx Hl Hy. unfold right_transfer_operator.
    run [(1%Z, n); (2%Z, d); (3%Z, n'); ((-1)%Z, m); ((-2)%Z, m')] [-1; -2]%Z [1; 2; 3]%Z VAL.
    intros i j Hi Hj. use VAL [((-1)%Z, i); ((-2)%Z, j)].
  Qed.
End NconCalls.
