(** * MpsNorm: the norm of a canonical state is the norm of its centre tensor *)
From Coq Require Import List ZArith Lia Permutation.
From Verif Require Import Prelude Res Algebra Tensor TensorFacts ListFacts BlockSparse Backends
  Mps MpsSpec MpsState MpsMeasureSpec MpsDouble MpsEnv MpsMeasure.
Import ListNotations.
Set Implicit Arguments.
Unset Strict Implicit.
Local Open Scope nat_scope.
Local Open Scope csr_scope.

Section Norm.
  Context {R : cjr}.
  Add Ring Rring : (rsr R).
  Notation tensor := (Tensor.tensor R).

  Definition norm2 (t : tensor) : R := lsum (idxs (shape t)) (fun ix => elt t ix *! cj (elt t ix)).
  Definition state_norm2 (l r : nat) (ts : list tensor) : R :=
    nsum l (fun a => nsum r (fun b => lsum (idxs (phys ts)) (fun sg => amp ts a sg b *! cj (amp ts a sg b)))).

  Lemma state_norm2_expectation l r ts : state_norm2 l r ts = expectation l r ts (idents ts).
  Proof. unfold state_norm2, expectation. apply nsum_ext. intros a _. apply nsum_ext. intros b _. symmetry. apply double_idents. Qed.

  Lemma norm_centre l r (ts : list tensor) c t : chain l ts r -> canonical ts c -> nth_error ts c = Some t -> state_norm2 l r ts = norm2 t.
  Proof.
    intros C K Et. destruct (chain_cut C Et) as (m & d & k & C1 & St & C2). rewrite state_norm2_expectation.
    assert (forall u, In u (firstn c ts) -> left_iso u) as IL.
    { intros u I. apply In_nth_error in I. destruct I as (i & Hi). assert (i < length (firstn c ts)) as Li by (apply nth_error_Some; congruence).
      rewrite firstn_length in Li. rewrite nth_error_firstn in Hi by lia. apply (K i u Hi). lia. }
    assert (forall u, In u (skipn (c + 1) ts) -> right_iso u) as IR.
    { intros u I. apply In_nth_error in I. destruct I as (i & Hi). rewrite nth_error_skipn in Hi. apply (K _ u Hi). lia. }
    assert (c < length ts) as Lc by (apply nth_error_Some; congruence).
    assert (idents ts = sitewise (length ts) (fun _ => ident)) as ->.
    { symmetry. apply map_const_idents. reflexivity. }
    rewrite <- (expectF r (fun _ => ident) Et C1 St).
    transitivity (nsum k (fun f => nsum m (fun a => tstep ident t a a f f))).
    - apply nsum_ext. intros f Hf.
      transitivity (nsum k (fun f' => (if f =? f' then r1 else r0) *! push m (eleftF l ts (fun _ => ident) c) ident t f f')).
      + apply nsum_ext. intros f' Hf'. rewrite erightF_ident; [|lia | reflexivity]. rewrite (right_part_iso C2 IR Hf Hf'). ring.
      + rewrite (nsum_delta_l (fun f' => push m (eleftF l ts (fun _ => ident) c) ident t f f') Hf). unfold push. apply nsum_ext. intros a Ha.
        transitivity (nsum m (fun a' => (if a =? a' then r1 else r0) *! tstep ident t a a' f f)).
        * apply nsum_ext. intros a' Ha'. rewrite eleftF_ident; [|lia | reflexivity]. rewrite (left_part_iso C1 IL Ha Ha'). reflexivity.
        * apply (nsum_delta_l (fun a' => tstep ident t a a' f f) Ha).
    - unfold norm2. rewrite St. rewrite lsum_idxs_cons, nsum_swap. apply nsum_ext. intros a Ha. rewrite lsum_idxs_cons.
      transitivity (nsum k (fun f => nsum d (fun u => elt t [a; u; f] *! cj (elt t [a; u; f])))).
      + apply nsum_ext. intros f Hf. apply (tstep_ident _ _ _ _ St).
      + rewrite nsum_swap. apply nsum_ext. intros u Hu. rewrite lsum_idxs_cons. apply nsum_ext. intros f Hf. cbn. ring.
  Qed.

  Lemma norm_tdiv (nrm : tensor -> R) (rdiv : R -> R -> R) (w : tensor) : (forall t, nrm t *! cj (nrm t) = norm2 t) -> div_ok rdiv -> nrm w <> r0 ->
    norm2 (tdiv rdiv w (nrm w)) = r1.
  Proof.
    intros Hn Hd Hz. set (z := nrm w) in *. pose proof (Hd r1 z Hz) as Inv. set (y := rdiv r1 z) in *.
    assert (cj z *! cj y = r1) as Inv' by (rewrite <- cj_mul, Inv; apply cj_1).
    assert (z *! cj z *! norm2 (tdiv rdiv w z) = z *! cj z) as E.
    { transitivity (norm2 w); [|rewrite <- Hn; reflexivity]. unfold norm2. cbn [shape tdiv]. rewrite <- lsum_mul_l. apply lsum_ext. intros ix _. change (elt (tdiv rdiv w z) ix) with (rdiv (elt w ix) z).
      transitivity ((z *! rdiv (elt w ix) z) *! cj (z *! rdiv (elt w ix) z)); [rewrite cj_mul; ring | rewrite (Hd (elt w ix) z Hz); reflexivity]. }
    transitivity (y *! cj y *! (z *! cj z *! norm2 (tdiv rdiv w z))).
    - transitivity ((z *! y) *! (cj z *! cj y) *! norm2 (tdiv rdiv w z)); [rewrite Inv, Inv'; ring | ring].
    - rewrite E. transitivity ((z *! y) *! (cj z *! cj y)); [ring | rewrite Inv, Inv'; ring].
  Qed.
End Norm.
