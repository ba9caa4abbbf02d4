(** * KerasMain: the layers *)
From Verif Require Import Prelude Algebra Tensor TensorFacts Res Backends Keras KerasSpec KerasCall KerasFacts KerasEntangler.
Set Implicit Arguments.
Unset Strict Implicit.

Section Layers.
  Context {R : csr}.
  Notation tensor := (tensor R).
  Variables (bias : option tensor) (act : list R -> list R) (inputs : tensor) (d0 : nat) (mid : list nat) (n : nat).
  Notation layer_input := (layer_input bias act inputs d0 mid n).
  Notation makes := (makes bias act inputs).

  Lemma makes_layer f F out : layer_input out -> (forall x x' o, (forall i, i < n -> x i = x' i) -> o < out -> F x o = F x' o) ->
    (forall x : tensor, shape x = [n] -> exists y, f x = Ok y /\ to_list y = map (fun o => F (fun i => elt x [i]) o +! bias_at bias o) (seq 0 out)) ->
    makes (call f act out inputs) F out.
  Proof.
    intros (Es & Hp & Ho & B & Ha) HF Hf. destruct (@call_layer R f F bias act n out d0 mid inputs Es Hp Ho Ha HF Hf) as (y & E & L).
    exists y. split; [exact E|]. split; [exact L|]. apply L.
  Qed.

  Lemma decomp_main (D out : nat) (a b : tensor) : layer_input out -> (shape a, shape b) = decomp_shapes n D out ->
    makes (dense_decomp out a b bias act inputs) (by_matrix n (W_decomp D a b)) out.
  Proof.
    intros H E. injection E as Ea Eb. apply makes_layer; [exact H|intros; apply by_matrix_ext; assumption|]. intros x Ex. apply decomp_core; try assumption. apply H.
  Qed.

  Lemma mpo_main (round_root ceil_root : nat -> nat -> nat) (out k bond i o : nat) (shapes : list (list nat)) (ws : list tensor) :
    layer_input out -> mpo_build round_root ceil_root n out k bond = Ok (i, o, shapes) -> i ^ k = n -> o ^ k = out -> map shape ws = shapes ->
    makes (dense_mpo k i out ws bias act inputs) (by_matrix n (W_mpo k bond i o ws)) out.
  Proof.
    intros H Eb En <- Es. unfold mpo_build in Eb. destruct (Nat.ltb_spec 2 k) as [Hk|]; [|discriminate]. cbn [negb] in Eb.
    destruct (is_perfect_root round_root _ k); [|discriminate]. destruct (is_perfect_root round_root (o ^ k) k); [|discriminate]. injection Eb as E1 E2 <-. rewrite E1, E2 in Es.
    assert (0 < o) as Ho by (destruct H as (_ & _ & Ho & _); destruct o; [rewrite Nat.pow_0_l in Ho by lia; lia|lia]).
    apply makes_layer; [exact H|intros; apply by_matrix_ext; assumption|]. intros x Ex. rewrite <- En in *. apply mpo_core; try assumption. apply H.
  Qed.

  Lemma condenser_main (base k : nat) (ws : list tensor) : let out := condenser_out n base k in
    layer_input out -> n mod base ^ k = 0 -> map shape ws = condenser_shapes out base k ->
    makes (dense_condenser n base k ws bias act inputs) (by_matrix n (W_condenser k base out ws)) out.
  Proof.
    intros out H Hd Es. assert (length ws = k) as <- by (rewrite <- (map_length shape ws), Es; apply repeat_length).
    assert (base ^ length ws <> 0) as Hb. { intros E. destruct H as (_ & _ & Ho & _). unfold out, condenser_out in Ho. rewrite E in Ho. cbn in Ho. lia. }
    pose proof (Nat.div_mod n (base ^ length ws) Hb) as En. rewrite Hd, Nat.add_0_r in En. fold (condenser_out n base (length ws)) in En. fold out in En.
    assert (0 < n) as Hn by (destruct H as (_ & _ & Ho & _); rewrite En; nia).
    apply makes_layer; [exact H|intros; apply by_matrix_ext; assumption|]. intros x Ex. apply condenser_core; try assumption. apply H.
  Qed.

  Lemma expander_main (base k : nat) (ws : list tensor) : let out := expander_out n base k in
    layer_input out -> map shape ws = expander_shapes n base k ->
    makes (dense_expander n base k ws bias act inputs) (by_matrix n (W_expander k base n ws)) out.
  Proof.
    intros out H Es. assert (length ws = k) as <- by (rewrite <- (map_length shape ws), Es; apply repeat_length).
    apply makes_layer; [exact H|intros; apply by_matrix_ext; assumption|]. intros x Ex. destruct H as (_ & Hp & Ho & B & _). unfold out, expander_out in Ho.
    destruct (Nat.eq_dec (length ws) 0) as [E0|E0].
    - destruct ws; [|discriminate]. apply (@expander_core R [] x bias n 1); try assumption; cbn in *; nia.
    - apply expander_core; try assumption; [nia|]. destruct base; [rewrite Nat.pow_0_l in Ho by exact E0; lia|lia].
  Qed.

  Lemma entangler_main (round_root : nat -> nat -> nat) (out legs levels leg out_leg : nat) (shapes : list (list nat)) (ws : list tensor) :
    layer_input out -> entangler_build round_root n out legs levels = Ok (leg, out_leg, shapes) -> map shape ws = shapes ->
    makes (dense_entangler legs leg out ws bias act inputs) (entangled legs leg out_leg ws) out.
  Proof.
    intros H Eb Es. unfold entangler_build in Eb. destruct (Nat.leb_spec 2 legs) as [HL|]; [|discriminate]. cbn [negb] in Eb.
    destruct (Nat.leb_spec 1 levels) as [Hl|]; [|discriminate]. cbn [negb] in Eb.
    destruct (is_perfect_root round_root n legs) eqn:P1; [|discriminate]. destruct (is_perfect_root round_root out legs) eqn:P2; [|discriminate]. cbn [negb] in Eb.
    apply Nat.eqb_eq in P1, P2. injection Eb as E1 E2 E3. rewrite E1 in P1. rewrite E1, E2 in E3. rewrite E2 in P2. subst out. rewrite <- E3 in Es.
    apply makes_layer; [exact H| |].
    - intros x x' o Hx Ho. rewrite <- P1 in Hx. apply (@entangled_ext R legs levels); assumption.
    - intros x Ex. rewrite <- P1 in Ex. apply (@entangler_core R legs levels); try assumption. apply H.
  Qed.
End Layers.
