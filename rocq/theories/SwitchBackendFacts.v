(** * Proofs about switch_backend *)
From Coq Require Import String Lia.
From Verif Require Import Prelude SwitchBackend.
Set Implicit Arguments.
Unset Strict Implicit.
Open Scope string_scope.
Open Scope list_scope.

Section Facts.
  Variable A : Type.
  Variable conv : string -> A -> A.
  Notation nodes := (nodes A).

  Lemma set_same (h : nodes) n v : set_node h n v n = v.
  Proof. unfold set_node. rewrite Nat.eqb_refl. reflexivity. Qed.
  Lemma set_other (h : nodes) n v m : m <> n -> set_node h n v m = h m.
  Proof. intros H. unfold set_node. destruct (Nat.eqb_spec m n); [contradiction|reflexivity]. Qed.

  (** the nodes [ns] of [h'] are those of [h], converted; the others are the same *)
  Definition converted (new : string) (ns : list nat) (h h' : nodes) : Prop :=
    forall n, (In n ns -> h' n = (new, conv new (snd (h n)))) /\ (~ In n ns -> h' n = h n).

  Lemma loop_ok new : forall ns (h : nodes), NoDup ns ->
    let '(h', b) := switch_loop conv new ns h in
    if b then (forall n, In n ns -> fst (h n) = "numpy") /\ converted new ns h h'
    else exists pre n post, ns = pre ++ n :: post /\ (forall m, In m pre -> fst (h m) = "numpy") /\ fst (h n) <> "numpy" /\ converted new pre h h'.
  Proof.
    induction ns as [|n ns IH]; intros h N; cbn [switch_loop].
    - split; [intros n []|]. intros n. split; [intros []|reflexivity].
    - apply NoDup_cons_iff in N. destruct N as [Hn N]. destruct (String.eqb_spec (fst (h n)) "numpy") as [E|E].
      + set (h1 := set_node h n (new, conv new (snd (h n)))). specialize (IH h1 N).
        assert (O : forall m, In m ns -> h1 m = h m) by (intros m Hm; apply set_other; intros ->; contradiction).
        assert (step : forall pre h', (forall m, In m pre -> In m ns) -> converted new pre h1 h' -> converted new (n :: pre) h h').
        { intros pre h' Hp C m. destruct (C m) as [C1 C2]. split.
          - intros [<- | Hm].
            + rewrite C2 by (intros Hp'; exact (Hn (Hp _ Hp'))). apply set_same.
            + rewrite (C1 Hm), (O m (Hp m Hm)). reflexivity.
          - intros Hm. rewrite C2 by (intros Hm'; apply Hm; right; exact Hm'). apply set_other. intros ->. apply Hm. left. reflexivity. }
        destruct (switch_loop conv new ns h1) as [h' []].
        * destruct IH as [F C]. split; [intros m [<- | Hm]; [exact E|rewrite <- (O m Hm); apply F, Hm]|]. apply step; [auto|exact C].
        * destruct IH as (pre & x & post & -> & F & Hx & C). exists (n :: pre), x, post. split; [reflexivity|].
          assert (Hp : forall m, In m pre -> In m (pre ++ x :: post)) by (intros m Hm; apply in_or_app; left; exact Hm).
          split; [intros m [<- | Hm]; [exact E|rewrite <- (O m (Hp m Hm)); apply F, Hm]|].
          split; [rewrite <- (O x); [exact Hx|apply in_or_app; right; left; reflexivity]|]. apply step; [exact Hp|exact C].
      + exists [], n, ns. split; [reflexivity|]. split; [intros m []|]. split; [exact E|]. intros m. split; [intros []|reflexivity].
  Qed.

  Lemma known_iff new : new <> "symmetric" -> existsb (String.eqb new) known = true <-> In new ["tensorflow"; "numpy"; "jax"; "pytorch"].
  Proof.
    intros Hs. rewrite existsb_exists. split.
    - intros (x & Hx & E). apply String.eqb_eq in E. subst x. cbn in Hx |- *. intuition congruence.
    - intros H. exists new. split; [|apply String.eqb_refl]. cbn in *. tauto.
  Qed.

  Theorem switch_ok new ns (h : nodes) : NoDup ns ->
    let '(h', b) := switch_backend conv new ns h in
    (b = true <-> (new = "symmetric" /\ forall n, In n ns -> fst (h n) = "symmetric") \/
                  (In new ["tensorflow"; "numpy"; "jax"; "pytorch"] /\ forall n, In n ns -> fst (h n) = "numpy")) /\
    (new = "symmetric" \/ ~ In new known -> forall n, h' n = h n) /\
    (b = true -> new <> "symmetric" -> converted new ns h h') /\
    (b = false -> new <> "symmetric" -> In new known ->
      exists pre n post, ns = pre ++ n :: post /\ (forall m, In m pre -> fst (h m) = "numpy") /\ fst (h n) <> "numpy" /\ converted new pre h h').
  Proof.
    intros N. unfold switch_backend. destruct (String.eqb_spec new "symmetric") as [->|Hs].
    - split; [|split; [reflexivity|split; [congruence|congruence]]]. rewrite forallb_forall. split.
      + intros H. left. split; [reflexivity|]. intros n Hn. apply String.eqb_eq, H, Hn.
      + intros [[_ H]|[H _]]; [intros n Hn; apply String.eqb_eq, H, Hn|]. cbn in H. intuition discriminate.
    - pose proof (known_iff Hs) as K. destruct (existsb (String.eqb new) known) eqn:Ek.
      + pose proof (proj1 K eq_refl) as Hk. pose proof (loop_ok new h N) as L. destruct (switch_loop conv new ns h) as [h' []].
        * destruct L as [F C]. split; [split; [intros _; right; split; assumption|reflexivity]|].
          split; [|split; [intros _ _; exact C|discriminate]]. intros [H|H]; [contradiction|]. exfalso. apply H. cbn in Hk |- *. tauto.
        * split; [|split; [|split; [discriminate|intros _ _ _; exact L]]].
          -- split; [discriminate|]. intros [[H _]|[_ H]]; [contradiction|]. destruct L as (pre & x & post & -> & _ & Hx & _).
             exfalso. apply Hx, H, in_or_app. right. left. reflexivity.
          -- intros [H|H]; [contradiction|]. exfalso. apply H. cbn in Hk |- *. tauto.
      + assert (Hk : ~ In new ["tensorflow"; "numpy"; "jax"; "pytorch"]) by (intros H; apply K in H; discriminate).
        split; [split; [discriminate|intros [[H _]|[H _]]; contradiction]|]. split; [reflexivity|]. split; [discriminate|].
        intros _ _ H. exfalso. apply Hk. cbn in H |- *. intuition congruence.
  Qed.
End Facts.
