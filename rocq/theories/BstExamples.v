(** * BstExamples: concrete block-sparse tensors *)
From Coq Require Import ZArith.
From Verif Require Import Prelude Algebra Tensor Res Charge ChargeFacts ChargeInst BlockSparse BlockSpec BstSpec ListFacts BlockFacts BstConv.
Set Implicit Arguments.
Unset Strict Implicit.

Section Check.
  Context {G : chg} {K : csr}.
  Fixpoint nodupb {A} (dec : forall x y : A, {x = y} + {x <> y}) (l : list A) : bool :=
    match l with [] => true | x :: r => (if in_dec dec x r then false else true) && nodupb dec r end.
  Lemma nodupb_ok A (dec : forall x y : A, {x = y} + {x <> y}) l : nodupb dec l = true -> NoDup l.
  Proof.
    induction l as [|x l IH]; intros H; [constructor|]. cbn in H. destruct (in_dec dec x l); [discriminate|]. constructor; [assumption | apply IH, H].
  Qed.
  Definition bc_okb (c : bc G) : bool :=
    match c with
    | Raw _ => true
    | Lab u ls => nodupb qdec u && forallb (fun i => i <? length u) ls && forallb (fun i => mem i ls) (seq 0 (length u))
    end.
  Lemma bc_okb_ok c : bc_okb c = true -> bc_ok c.
  Proof.
    destruct c as [l|u ls]; [intros; exact I|]. cbn [bc_okb]. rewrite !andb_true_iff. intros [[H1 H2] H3]. split; [apply (nodupb_ok H1)|].
    rewrite forallb_forall in H2, H3. intros i. split; intros Hi; [apply Nat.ltb_lt, H2, Hi|]. apply mem_In, H3, in_seq. lia.
  Qed.
  Definition wf_bstb (t : bst G K) : bool :=
    (length (bcs t) =? length (bfs t)) && forallb bc_okb (bcs t) && (length (bdata t) =? length (allowed (elegs t))) &&
    is_permb (length (bcs t)) (concat (bord t)) && forallb (fun o => negb (length o =? 0)) (bord t).
  Lemma wf_bstb_ok t : wf_bstb t = true -> wf_bst t.
  Proof.
    unfold wf_bstb. rewrite !andb_true_iff. intros [[[[H1 H2] H3] H4] H5]. rewrite forallb_forall in H2, H5.
    split; [apply Nat.eqb_eq, H1|]. split; [intros c Hc; apply bc_okb_ok, H2, Hc|]. split; [apply Nat.eqb_eq, H3|].
    split; [apply is_permb_spec, H4|]. intros o Ho ->. specialize (H5 [] Ho). discriminate.
  Qed.
  Definition wf_indexb (i : index (G := G)) : bool := (length (fst i) =? length (snd i)) && negb (length (fst i) =? 0) && forallb bc_okb (fst i).
  Lemma wf_indexb_ok (ixs : list (index (G := G))) : forallb wf_indexb ixs = true -> forall i, In i ixs -> wf_index i.
  Proof.
    rewrite forallb_forall. intros H i Hi. specialize (H i Hi). unfold wf_indexb in H. rewrite !andb_true_iff in H. destruct H as [[H1 H2] H3].
    rewrite forallb_forall in H3. split; [apply Nat.eqb_eq, H1|]. split; [|intros c Hc; apply bc_okb_ok, H3, Hc].
    destruct (fst i); [discriminate | discriminate].
  Qed.
End Check.

Definition show {K : csr} (r : res (tensor K)) : res (list nat * list K) := rbind r (fun d => Ok (shape d, to_list d)).

(** U1 charges, legs stored in the order A, B, C, D *)
Definition ca : bc Z_chg := Raw [0; 1; -1]%Z.
Definition cb : bc Z_chg := Lab [1; 0]%Z [0; 1; 1].
Definition cc : bc Z_chg := Raw [0; 1]%Z.
Definition ixA : index (G := Z_chg) := ([ca], [false]).
Definition ixB : index (G := Z_chg) := ([cb], [true]).
Definition ixC : index (G := Z_chg) := ([cc; ca], [false; true]).
Definition numbers (n : nat) : list Z := map Z.of_nat (seq 1 n).
(** A (3) x B (3) x (C,A') (6), data 1,2,3,... *)
Definition ex_t : bst Z_chg Z_csr :=
  match binit 5 (K := Z_csr) numbers [ixA; ixB; ixC] with Ok t => t | _ => BST [] [] [] [] end.
(** the same legs in the order B, (C,A'), A with all flows reversed *)
Definition ex_u : bst Z_chg Z_csr :=
  match binit 5 (K := Z_csr) (fun n => map (fun i => (7 - 2 * Z.of_nat i)%Z) (seq 1 n)) [([cb], [false]); ([cc; ca], [true; false]); ([ca], [true])] with Ok t => t | _ => BST [] [] [] [] end.
