(** * C41: what does not hold *)
From Coq Require Import String ZArith Permutation.
From Verif Require Import Prelude Res Algebra Tensor TensorFacts Serial SerialSpec SerialJson SerialFile SerialLoad SerialExamples.
Set Implicit Arguments.
Unset Strict Implicit.
Open Scope string_scope.
Open Scope list_scope.
Open Scope nat_scope.

Definition got {A} (d : A) (r : res A) : A := match r with Ok x => x | _ => d end.
Definition is_ok {A} (r : res A) : bool := match r with Ok _ => true | _ => false end.
Lemma got_ok A (d : A) r : is_ok r = true -> r = Ok (got d r).
Proof. destruct r; [reflexivity | discriminate | discriminate]. Qed.
Definition no_heap : @heap Z_csr := Heap [] [].
Definition no_file : @file Z_csr := File [] [] [] [].

(** [save_nodes] leaves the edges of the network renamed: the list of edges is emptied while saving, so that the loop
    which should restore the names (utils.py:86-87) does nothing. *)
Definition saved := got (no_file, no_heap) (save_nodes ex_g [0; 1; 2] [0; 1; 2; 3]).
Theorem C41_save_names_refuted : exists (h : @heap Z_csr) ns es f h', sound h ns /\ NoDup ns /\ all_edges h ns es /\ inside h ns /\
  save_nodes h ns es = Ok (f, h') /\ map g_name (he h') <> map g_name (he h).
Proof.
  exists ex_g, [0; 1; 2], [0; 1; 2; 3], (fst saved), (snd saved). split; [apply soundb_ok; vm_compute; reflexivity|]. split; [apply nodupn_inv; reflexivity|]. split; [apply all_edgesb_ok; vm_compute; reflexivity|]. split; [apply insideb_ok; vm_compute; reflexivity|].
  split; [rewrite <- surjective_pairing; apply got_ok; vm_compute; reflexivity|]. vm_compute. discriminate.
Qed.
Print Assumptions C41_save_names_refuted.

(** Eleven nodes do not come back in the order given: "node10" is listed before "node2". *)
Definition eleven : @heap Z_csr := Heap (map (fun n => Onode (digits n) ["a"] "numpy" (PNode (zten (Z.of_nat n) [2])) [n]) (seq 0 11)) (map (fun n => Oedge (Some (n, 0)) None true "a") (seq 0 11)).
Definition saved11 := got (no_file, no_heap) (save_nodes eleven (seq 0 11) (seq 0 11)).
Definition loaded11 := got (no_heap, []) (load_nodes (sort String.leb) no_heap (fst saved11)).
Theorem C41_file_order_refuted : exists (h : @heap Z_csr) ns es f h1 h' ns', sound h ns /\ NoDup ns /\ all_edges h ns es /\ inside h ns /\
  save_nodes h ns es = Ok (f, h1) /\ load_nodes (sort String.leb) no_heap f = Ok (h', ns') /\ ~ copied h ns h' ns'.
Proof.
  exists eleven, (seq 0 11), (seq 0 11), (fst saved11), (snd saved11), (fst loaded11), (snd loaded11). split; [apply soundb_ok; vm_compute; reflexivity|]. split; [apply seq_NoDup|]. split; [apply all_edgesb_ok; vm_compute; reflexivity|]. split; [apply insideb_ok; vm_compute; reflexivity|].
  split; [rewrite <- surjective_pairing; apply got_ok; vm_compute; reflexivity|]. split; [rewrite <- surjective_pairing; apply got_ok; vm_compute; reflexivity|].
  intros C. destruct (cp_node C (i := 2)) as (nd & nd' & A & B & D & _); [rewrite seq_length; lia|].
  assert (option_map o_name (nth_error (hn eleven) (nth 2 (seq 0 11) 0)) = Some "2") as A' by (vm_compute; reflexivity). rewrite A in A'.
  assert (option_map o_name (nth_error (hn (fst loaded11)) (nth 2 (snd loaded11) 0)) = Some "10") as B' by (vm_compute; reflexivity). rewrite B in B'. cbn in A', B'. congruence.
Qed.
Print Assumptions C41_file_order_refuted.

(** A scalar node can be saved but not loaded (the number stored in place of the axis names cannot be read back). *)
Definition scalar : @heap Z_csr := Heap [Onode "s" [] "numpy" (PNode (zten 1 [])) []] [].
Definition saved0 := got (no_file, no_heap) (save_nodes scalar [0] []).
Theorem C41_file_scalar_refuted : exists (h : @heap Z_csr) ns f h1, sound h ns /\ NoDup ns /\ all_edges h ns [] /\ inside h ns /\
  save_nodes h ns [] = Ok (f, h1) /\ forall keys, (forall l, Permutation l (keys l)) -> load_nodes keys no_heap f = Raise.
Proof.
  exists scalar, [0], (fst saved0), (snd saved0). split; [apply soundb_ok; vm_compute; reflexivity|]. split; [apply nodupn_inv; reflexivity|]. split; [apply all_edgesb_ok; vm_compute; reflexivity|]. split; [apply insideb_ok; vm_compute; reflexivity|].
  split; [rewrite <- surjective_pairing; apply got_ok; vm_compute; reflexivity|]. intros keys K. unfold load_nodes. pose proof (K ["node0"]) as P. apply Permutation_length_1_inv in P.
  assert (map fst (fl_nodes (fst saved0)) = ["node0"]) as -> by (vm_compute; reflexivity). rewrite P. vm_compute. reflexivity.
Qed.
Print Assumptions C41_file_scalar_refuted.

(** An edge whose first end is left out of the document is loaded as an edge that is not dangling and has one end. *)
Definition doc1 := got (Doc [] [] []) (nodes_to_json ex_ser ex_h [3] [4] []).
Definition loaded1 := got (no_heap, [], []) (nodes_from_json ex_deser no_heap doc1).
Theorem C41_json_first_end_refuted : exists (h : @heap Z_csr) ns es d h' ns' b e ed, sound h ns /\ NoDup ns /\ all_edges h ns es /\
  nodes_to_json ex_ser h ns es [] = Ok d /\ nodes_from_json ex_deser no_heap d = Ok (h', ns', b) /\
  slot h' (nth 0 ns' 0) 0 = Some e /\ nth_error (he h') e = Some ed /\ g_dangling ed = false /\ g_1 ed = None /\ ~ sound h' ns'.
Proof.
  exists ex_h, [3], [4], doc1, (fst (fst loaded1)), (snd (fst loaded1)), (snd loaded1), 1, (Oedge None (Some (0, 0)) false "cx"). split; [apply soundb_ok; vm_compute; reflexivity|]. split; [apply nodupn_inv; reflexivity|]. split; [apply all_edgesb_ok; vm_compute; reflexivity|].
  split; [apply got_ok; vm_compute; reflexivity|]. split; [rewrite <- !surjective_pairing; apply got_ok; vm_compute; reflexivity|].
  assert (slot (fst (fst loaded1)) (nth 0 (snd (fst loaded1)) 0) 0 = Some 1) as S1 by (vm_compute; reflexivity).
  assert (nth_error (he (fst (fst loaded1))) 1 = Some (Oedge None (Some (0, 0)) false "cx")) as E1 by (vm_compute; reflexivity).
  repeat split; try assumption. intros SO.
  destruct (@so_edge _ _ _ SO (nth 0 (snd (fst loaded1)) 0) 0 1) as (ed & A & _ & _ & N & _); [apply nth_In; vm_compute; lia | exact S1|]. rewrite E1 in A. inversion A; subst. apply N. reflexivity.
Qed.
Print Assumptions C41_json_first_end_refuted.

(** A node listed twice is loaded as two nodes, the first of which keeps none of the edges. *)
Definition doc2 := got (Doc [] [] []) (nodes_to_json ex_ser ex_h [0; 1; 0] [0; 1; 2] []).
Definition loaded2 := got (no_heap, [], []) (nodes_from_json ex_deser no_heap doc2).
Theorem C41_json_twice_refuted : exists (h : @heap Z_csr) ns es d h' ns' b, sound h ns /\ all_edges h ns es /\
  nodes_to_json ex_ser h ns es [] = Ok d /\ nodes_from_json ex_deser no_heap d = Ok (h', ns', b) /\
  slot h (nth 0 ns 0) 1 = slot h (nth 1 ns 0) 0 /\ slot h' (nth 0 ns' 0) 1 <> slot h' (nth 1 ns' 0) 0.
Proof.
  exists ex_h, [0; 1; 0], [0; 1; 2], doc2, (fst (fst loaded2)), (snd (fst loaded2)), (snd loaded2). split; [apply soundb_ok; vm_compute; reflexivity|]. split; [apply all_edgesb_ok; vm_compute; reflexivity|].
  split; [apply got_ok; vm_compute; reflexivity|]. split; [rewrite <- !surjective_pairing; apply got_ok; vm_compute; reflexivity|]. split; [reflexivity|]. vm_compute. discriminate.
Qed.
Print Assumptions C41_json_twice_refuted.
