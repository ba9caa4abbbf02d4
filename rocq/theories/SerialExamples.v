(** * SerialExamples: concrete networks *)
From Coq Require Import String ZArith Permutation.
From Verif Require Import Prelude Res Algebra Tensor TensorFacts ListFacts Serial SerialSpec SerialCore SerialCopy SerialJson SerialFile SerialLoad.
Set Implicit Arguments.
Unset Strict Implicit.
Open Scope string_scope.
Open Scope list_scope.
Open Scope nat_scope.

(** matrices [A], [B] and a tensor [C] with a trace; [A] - [B] - [C], and [C] - [X] *)
Definition zten (c : Z) (s : list nat) : tensor Z_csr := Tensor (R := Z_csr) s (fun ix => (c + Z.of_nat (ravel s ix))%Z).
Definition ex_h : @heap Z_csr := Heap
  [Onode "A" ["l"; "r"] "numpy" (PNode (zten 1 [2; 3])) [0; 1]; Onode "B" ["l"; "r"] "numpy" (PNode (zten 7 [3; 2])) [1; 2];
   Onode "C" ["a"; "b"; "c"; "x"] "numpy" (PNode (zten (-5) [2; 4; 4; 2])) [2; 3; 3; 4]; Onode "X" ["x"] "jax" (PNode (zten 0 [2])) [4]]
  [Oedge (Some (0, 0)) None true "free"; Oedge (Some (0, 1)) (Some (1, 0)) false "ab"; Oedge (Some (2, 0)) (Some (1, 1)) false "bc";
   Oedge (Some (2, 1)) (Some (2, 2)) false "tr"; Oedge (Some (2, 3)) (Some (3, 0)) false "cx"].
Definition ex_ns : list nat := [1; 2; 0].
Definition ex_es : list nat := [4; 0; 2; 3; 1].

Ltac pick := repeat match goal with H : In _ (_ :: _) |- _ => destruct H as [<-|H] | H : In _ [] |- _ => destruct H end.
Lemma slot_cases (h : @heap Z_csr) n k e : slot h n k = Some e -> exists nd, nth_error (hn h) n = Some nd /\ nth_error (o_edges nd) k = Some e /\ k < length (o_edges nd).
Proof. unfold slot. destruct (nth_error (hn h) n) as [nd|]; [|discriminate]. intros H. exists nd. repeat split; auto. apply nth_error_Some. congruence. Qed.
(** a boolean version of [sound], [all_edges] *)
Definition slots (h : @heap Z_csr) (ns : list nat) : list (nat * nat * nat) :=
  flat_map (fun n => match nth_error (hn h) n with Some nd => map (fun k => (n, k, nth k (o_edges nd) 0)) (seq 0 (length (o_edges nd))) | None => [] end) ns.
Lemma slots_in h ns n k e : In n ns -> slot h n k = Some e -> In (n, k, e) (slots h ns).
Proof.
  intros Hn Hs. destruct (slot_cases Hs) as (nd & E & Ee & Hk). unfold slots. apply in_flat_map. exists n. split; [exact Hn|]. rewrite E. apply in_map_iff. exists k. split; [rewrite (nth_error_nth _ _ _ Ee); reflexivity | apply in_seq; lia].
Qed.
Definition end_eqb (x y : option (nat * nat)) : bool := match x, y with Some (a, b), Some (c, d) => (a =? c) && (b =? d) | None, None => true | _, _ => false end.
Lemma end_eqb_eq x y : end_eqb x y = true <-> x = y.
Proof.
  destruct x as [[a b]|], y as [[c d]|]; cbn; try (split; [discriminate | congruence]); [|tauto]. rewrite Bool.andb_true_iff, !Nat.eqb_eq. split; [intros [-> ->]; reflexivity | intros E; inversion E; auto].
Qed.
Definition soundb (h : @heap Z_csr) (ns : list nat) : bool :=
  forallb (fun n => match nth_error (hn h) n with
    | Some nd => nodups (o_axes nd) && (length (o_axes nd) =? length (pshape (o_pay nd))) && (length (o_edges nd) =? length (pshape (o_pay nd))) | None => false end) ns &&
  forallb (fun x => let '(n, k, e) := x in match nth_error (he h) e with
    | Some ed => (end_eqb (g_1 ed) (Some (n, k)) || end_eqb (g_2 ed) (Some (n, k))) && Bool.eqb (g_dangling ed) (is_none (g_2 ed)) && negb (end_eqb (g_1 ed) None) && negb (end_eqb (g_1 ed) (g_2 ed)) &&
        forallb (fun y => match y with Some (m, l) => negb (mem m ns) || match slot h m l with Some e' => e' =? e | None => false end | None => true end) [g_1 ed; g_2 ed]
    | None => false end) (slots h ns).
Lemma soundb_ok h ns : soundb h ns = true -> sound h ns.
Proof.
  unfold soundb. rewrite Bool.andb_true_iff, !forallb_forall. intros [A B]. constructor.
  - intros n Hn. specialize (A n Hn). destruct (nth_error (hn h) n) as [nd|]; [|discriminate]. rewrite !Bool.andb_true_iff, !Nat.eqb_eq in A. exists nd. destruct A as [[A1 A2] A3]. repeat split; auto. apply nodups_ok, A1.
  - intros n k e Hn Hs. specialize (B _ (slots_in Hn Hs)). cbn beta iota in B. destruct (nth_error (he h) e) as [ed|]; [|discriminate]. rewrite !Bool.andb_true_iff, Bool.orb_true_iff, !end_eqb_eq, !Bool.negb_true_iff, Bool.eqb_true_iff in B. destruct B as [[[[B1 B2] B3] B4] B5].
    exists ed. repeat split; auto; intros Q; apply end_eqb_eq in Q; congruence.
  - intros n k e ed m l Hn Hs He Hh Hm. specialize (B _ (slots_in Hn Hs)). cbn beta iota in B. rewrite He in B. rewrite !Bool.andb_true_iff in B. destruct B as [_ B]. rewrite forallb_forall in B.
    specialize (B (Some (m, l))). cbn beta iota in B. rewrite (proj2 (mem_In _ _) Hm) in B. cbn [negb orb] in B. assert (In (Some (m, l)) [g_1 ed; g_2 ed]) as Q by (destruct Hh as [Q|Q]; rewrite Q; cbn; auto). specialize (B Q).
    destruct (slot h m l) as [e'|]; [|discriminate]. apply Nat.eqb_eq in B. congruence.
Qed.
Definition all_edgesb (h : @heap Z_csr) (ns es : list nat) : bool :=
  nodupn es && forallb (fun x => mem (snd x) es) (slots h ns) && forallb (fun e => existsb (fun x => match x with (n, k, e') => (e' =? e) && mem n ns && match slot h n k with Some f => f =? e | None => false end end) (slots h ns)) es.
Lemma nodupn_inv l : nodupn l = true -> NoDup l.
Proof. induction l as [|x l IH]; cbn; [constructor|]. rewrite Bool.andb_true_iff, Bool.negb_true_iff. intros [A B]. constructor; [apply mem_nIn, A | apply IH, B]. Qed.
Lemma all_edgesb_ok h ns es : all_edgesb h ns es = true -> all_edges h ns es.
Proof.
  unfold all_edgesb. rewrite !Bool.andb_true_iff, !forallb_forall. intros [[A B] C]. split; [apply nodupn_inv, A|]. intros e. split.
  - intros He. specialize (C e He). apply existsb_exists in C as ([[n k] e'] & _ & C). rewrite !Bool.andb_true_iff, Nat.eqb_eq in C. destruct C as [[-> C1] C2]. apply mem_In in C1. exists n, k. split; [exact C1|]. destruct (slot h n k); [apply Nat.eqb_eq in C2; congruence | discriminate].
  - intros (n & k & Hn & Hs). apply mem_In. exact (B _ (slots_in Hn Hs)).
Qed.
Definition insideb (h : @heap Z_csr) (ns : list nat) : bool :=
  forallb (fun x => match nth_error (he h) (snd x) with Some ed => forallb (fun y => match y with Some (m, _) => mem m ns | None => true end) [g_1 ed; g_2 ed] | None => true end) (slots h ns).
Lemma insideb_ok h ns : insideb h ns = true -> inside h ns.
Proof.
  unfold insideb. rewrite forallb_forall. intros A n k e ed m l Hn Hs He Hh. specialize (A _ (slots_in Hn Hs)). cbn [snd] in A. rewrite He, forallb_forall in A. assert (In (Some (m, l)) [g_1 ed; g_2 ed]) as Q by (destruct Hh as [Q|Q]; rewrite Q; cbn; auto).
  specialize (A _ Q). cbn in A. apply mem_In, A.
Qed.

(** a text for the tensors of the example *)
Definition ex_ser (t : tensor Z_csr) : string := match shape t with [2; 3] => "A" | [3; 2] => "B" | [2] => "X" | _ => "C" end.
Definition ex_deser (s : string) : option (tensor Z_csr) :=
  if String.eqb s "A" then Some (of_list (R := Z_csr) [2; 3] [1; 2; 3; 4; 5; 6]%Z) else if String.eqb s "B" then Some (of_list (R := Z_csr) [3; 2] [7; 8; 9; 10; 11; 12]%Z)
  else if String.eqb s "C" then Some (zten (-5) [2; 4; 4; 2]) else if String.eqb s "X" then Some (of_list (R := Z_csr) [2] [0; 1]%Z) else None.
(** a closed network with a copy tensor *)
Definition ex_g : @heap Z_csr := Heap
  [Onode "v" ["i"] "numpy" (PNode (zten 1 [2])) [0]; Onode "copy" ["0"; "1"; "2"] "numpy" (PCopy 3 2 "float64") [0; 1; 2]; Onode "v" ["i"; "j"] "jax" (PNode (zten 3 [2; 2])) [2; 3]]
  [Oedge (Some (0, 0)) (Some (1, 0)) false "e"; Oedge (Some (1, 1)) None true "out"; Oedge (Some (2, 0)) (Some (1, 2)) false "e"; Oedge (Some (2, 1)) None true "j"].
