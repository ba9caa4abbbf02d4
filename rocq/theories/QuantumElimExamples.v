(** * QuantumElimExamples: networks with identities used by the examples for C40 *)
From Coq Require Import ZArith.
From Verif Require Import Prelude Algebra Tensor TensorFacts Einsum EinsumFacts NetworkFacts Graph GraphBase GraphContract GraphOps GraphValue GraphOuter GraphConnect GraphProg GraphSched GraphQuery GraphQueryFacts GraphCopy GraphCopyFacts GraphDensity GraphExamples P_Copy P_Path CopyTensor PathContract PathFacts Quantum QuantumSpec QuantumFacts QuantumNodes QuantumElim QuantumElimSpec QuantumExamples.
Set Implicit Arguments.
Unset Strict Implicit.

(** The matrix at node 1 stands between the identities 0 and 2; 3 is an identity with loose legs; 4 and 5 are identities
    joined to a loop. *)
Definition ex_i_ops : list (@op G_cjr) :=
  let id d := OpNode (copy_tensor 2 d) None in
  [id 2; OpNode (gt 2 [2; 2]) None; id 2; id 3; id 3; id 3; OpConnect (0, 1) (1, 0); OpConnect (1, 1) (2, 0); OpConnect (4, 0) (5, 0); OpConnect (4, 1) (5, 1)].
Definition ex_i : @st G_cjr := fst (exec_ops idl ex_i_ops (@empty_st G_cjr)).
Definition ex_I : quop := Qu [0; 6] [5; 7] [4; 5] [] [0; 2; 3; 4; 5].
Lemma ex_i_wf : wf ex_i.
Proof.
  apply (@exec_ops_wf G_cjr idl idl_perm ex_i_ops (@empty_st G_cjr) ex_i tt empty_wf). unfold ex_i.
  assert (snd (exec_ops idl ex_i_ops (@empty_st G_cjr)) = Some tt) as <- by (vm_compute; reflexivity). apply surjective_pairing.
Qed.
Lemma ex_i_named n : is_node ex_i n -> named ex_i n.
Proof. intros _. apply namedb_spec. do 6 (destruct n as [|n]; [vm_compute; reflexivity|]). vm_compute. reflexivity. Qed.

(** accepted objects with CopyNodes *)
Lemma accepted_at (s : @st G_cjr) q l : wf s -> (forall n, is_node s n -> named s n) -> NoDup (q_edges q) -> forallb (fun n => match s_nodes s n with Some _ => true | None => false end) (q_ref q) = true ->
  forallb (fun n => existsb (Nat.eqb n) l) (q_cps q) = true -> snd (q_nodes idl q s) = Some l -> snd (construct idl q s) = Some q -> oper s q l.
Proof.
  intros W Hn HN Hr Hc Hl H. destruct (construct_spec idl_perm W HN Hn) as [(ns & O & _)|[_ E]].
  - intros n Q. apply (proj1 (forallb_forall _ _) Hr) in Q. unfold is_node. destruct (s_nodes s n); [discriminate|discriminate Q].
  - intros n ns Q O. apply (proj1 (forallb_forall _ _) Hc) in Q. apply existsb_exists in Q. destruct Q as (m & Q1 & Q2). apply Nat.eqb_eq in Q2. subst m.
    destruct (q_nodes_ok idl_perm W O) as (l' & K1 & K2 & _). assert (q_nodes idl (Qu (q_out q) (q_in q) (q_ref q) (q_ign q) []) s = q_nodes idl q s) as K by reflexivity.
    rewrite K in K1. rewrite K1 in Hl. injection Hl as ->. apply (Permutation_in _ (Permutation_sym K2) Q1).
  - destruct (q_nodes_ok idl_perm W O) as (l' & K1 & K2 & _). rewrite K1 in Hl. injection Hl as ->. apply (oper_perm K2 O).
  - rewrite E in H. discriminate.
Qed.

(** checks of [copies], [linked] and [paired] *)
Definition danglesb (s : @st G_cjr) (p : port) : bool :=
  match slot s p with Some f => match s_edges s f with Some (Edge n k None false) => Nat.eqb n (fst p) && Nat.eqb k (snd p) | _ => false end | None => false end.
Lemma danglesb_spec s p : danglesb s p = true <-> dangles s p.
Proof.
  unfold danglesb, dangles. split.
  - destruct (slot s p) as [f|]; [|discriminate]. destruct (s_edges s f) as [[n k [x|] [|]]|] eqn:E; try discriminate. intros H. apply andb_true_iff in H. destruct H as [H1 H2].
    apply Nat.eqb_eq in H1, H2. subst. exists f. auto.
  - intros (f & -> & ->). rewrite !Nat.eqb_refl. reflexivity.
Qed.
Definition identb (s : @st G_cjr) q n : bool := existsb (Nat.eqb n) (q_cps q) && match s_nodes s n with Some d => Nat.eqb (rank (n_t d)) 2 | None => false end.
Lemma identb_spec s q n : ident s q n -> In n (filter (identb s q) (q_cps q)).
Proof.
  intros [H (d & H1 & H2)]. apply filter_In. split; [exact H|]. unfold identb. rewrite H1, H2. rewrite andb_true_r. apply existsb_exists. exists n. split; [exact H|apply Nat.eqb_refl].
Qed.
Definition pairedb (s : @st G_cjr) q : bool :=
  let ids := filter (identb s q) (q_cps q) in
  forallb (fun n => forallb (fun k => forallb (fun m => forallb (fun j =>
    negb (danglesb s (n, k)) || negb (match slot s (n, 1 - k), slot s (m, j) with Some e, Some f => Nat.eqb e f | _, _ => false end) || danglesb s (m, 1 - j)) [0; 1]) ids) [0; 1]) ids.
Lemma pairedb_spec s q : pairedb s q = true -> paired s q.
Proof.
  intros H n m k j e Hn Hm Hk Hj Hd H1 H2. unfold pairedb in H. cbv zeta in H. pose proof (proj1 (forallb_forall _ _) H n (identb_spec Hn)) as K. cbv beta in K.
  assert (forall x, x < 2 -> In x [0; 1]) as Two by (intros x Hx; cbn; lia).
  pose proof (proj1 (forallb_forall _ _) K k (Two k Hk)) as K1. cbv beta in K1. pose proof (proj1 (forallb_forall _ _) K1 m (identb_spec Hm)) as K2. cbv beta in K2.
  pose proof (proj1 (forallb_forall _ _) K2 j (Two j Hj)) as K3. cbv beta in K3. rewrite (proj2 (danglesb_spec s (n, k)) Hd), H1, H2, Nat.eqb_refl in K3. cbn in K3. apply danglesb_spec, K3.
Qed.
Definition copiesb (s : @st G_cjr) q : bool :=
  forallb (fun n => match s_nodes s n with Some d => match shape (n_t d) with x :: _ => let c := copy_tensor (R := G_cjr) (rank (n_t d)) x in
      (if list_eq_dec Nat.eq_dec (shape (n_t d)) (shape c) then true else false) &&
      forallb (fun i => let u := elt (n_t d) i in let v := elt c i in Z.eqb (fst u) (fst v) && Z.eqb (snd u) (snd v)) (idxs (shape (n_t d))) | [] => false end | None => false end) (q_cps q).
Lemma copiesb_spec s q : copiesb s q = true -> copies s q.
Proof.
  intros H n Hn. pose proof (proj1 (forallb_forall _ _) H n Hn) as K. cbv beta in K. destruct (s_nodes s n) as [d|]; [|discriminate]. destruct (shape (n_t d)) as [|x l] eqn:E; [discriminate|]. cbv zeta in K.
  apply andb_true_iff in K. destruct K as [K1 K2]. exists d, (rank (n_t d)), x. split; [reflexivity|]. rewrite <- E in K1, K2. destruct (list_eq_dec _ _ _) as [K3|]; [|discriminate]. split; [exact K3|].
  intros ix V. apply In_idxs in V. pose proof (proj1 (forallb_forall _ _) K2 ix V) as K. cbv beta zeta in K. apply andb_true_iff in K. destruct K as [A B]. apply Z.eqb_eq in A, B.
  destruct (elt (n_t d) ix), (elt (copy_tensor (rank (n_t d)) x) ix). cbn in *. congruence.
Qed.

Lemma ex_I_oper : oper ex_i ex_I [0; 1; 2; 3; 4; 5].
Proof. apply accepted_at; [apply ex_i_wf|apply ex_i_named|cbn; repeat constructor; cbn; intuition lia|vm_compute; reflexivity..]. Qed.
Lemma on_at (s : @st G_cjr) n k e : slot s (n, k) = Some e -> on s n e.
Proof. intros H. exists k. exact H. Qed.
Lemma ex_I_linked : linked ex_i ex_I [0; 1; 2; 3; 4; 5].
Proof.
  intros m [<-|[<-|[<-|[<-|[<-|[<-|[]]]]]]].
  - right. exists 0, 0. split; [cbn; auto|]. split; [apply (@on_at _ 0 0); vm_compute; reflexivity|constructor].
  - right. exists 0, 0. split; [cbn; auto|]. split; [apply (@on_at _ 0 0); vm_compute; reflexivity|]. apply (conn_step (m := 0) (e := 12)); [constructor|apply (@on_at _ 0 1); vm_compute; reflexivity|apply (@on_at _ 1 0); vm_compute; reflexivity].
  - right. exists 5, 2. split; [cbn; auto|]. split; [apply (@on_at _ 2 1); vm_compute; reflexivity|constructor].
  - right. exists 6, 3. split; [cbn; auto|]. split; [apply (@on_at _ 3 0); vm_compute; reflexivity|constructor].
  - left. cbn. auto.
  - left. cbn. auto.
Qed.
Lemma ex_I_paired : paired ex_i ex_I.
Proof. apply pairedb_spec. vm_compute. reflexivity. Qed.
Lemma ex_I_copies : copies ex_i ex_I.
Proof. apply copiesb_spec. vm_compute. reflexivity. Qed.

(** shape and entries of the tensor of a call *)
Definition out_of (m : @M G_cjr (tensor G_cjr)) (s : @st G_cjr) : option (list nat * list (Z * Z)) :=
  match snd (m s) with Some t => Some (shape t, map (elt t) (idxs (shape t))) | None => None end.
