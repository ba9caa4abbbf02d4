(** * C41: saving and loading *)
From Coq Require Import String ZArith Permutation.
From Verif Require Import Prelude Res Algebra Tensor TensorFacts Serial SerialSpec SerialJson SerialFile SerialLoad SerialExamples.
Set Implicit Arguments.
Unset Strict Implicit.
Open Scope string_scope.
Open Scope list_scope.
Open Scope nat_scope.

(** [nodes_to_json] and [nodes_from_json]: what is loaded is a copy, in any heap and without touching it; a dictionary of
    edges comes back with the edges that were included, keys without any dropped.  [es]: the edges in any order.
    The copy is sound if no included edge has its first end at a node that is left out. *)
Theorem C41_json (R : csr) (ser : tensor R -> string) (deser : string -> option (tensor R)) (h h0 : @heap R) ns es b :
  sound h ns -> NoDup ns -> all_edges h ns es ->
  (forall n nd, In n ns -> nth_error (hn h) n = Some nd -> exists t t', o_pay nd = PNode t /\ deser (ser t) = Some t' /\ teq t' t) ->
  exists d h' ns' f, nodes_to_json ser h ns es b = Ok d /\ nodes_from_json deser h0 d = Ok (h', ns', bound es f b) /\
    copied h ns h' ns' /\ extends h0 h' /\ (forall n, In n ns' -> length (hn h0) <= n) /\
    (forall i k e, i < length ns -> slot h (nth i ns 0) k = Some e -> slot h' (nth i ns' 0) k = Some (f e)).
Proof. exact (@json_round R ser deser h h0 ns es b). Qed.
Print Assumptions C41_json.
Example C41_json_ex : sound ex_h ex_ns /\ NoDup ex_ns /\ all_edges ex_h ex_ns ex_es /\
  (forall n nd, In n ex_ns -> nth_error (hn ex_h) n = Some nd -> exists t t', o_pay nd = PNode t /\ ex_deser (ex_ser t) = Some t' /\ teq t' t) /\
  match nodes_to_json ex_ser ex_h ex_ns ex_es [("k", [1; 3]); ("none", [9]); ("mixed", [9; 4])] with
  | Ok d => match nodes_from_json ex_deser ex_h d with Ok (h', ns', b') => Some (map (fun n => option_map (fun nd => (o_name nd, o_edges nd)) (nth_error (hn h') n)) ns', skipn 13 (he h'), b') | _ => None end
  | _ => None end =
  Some ([Some ("B", [17; 15]); Some ("C", [15; 16; 16; 13]); Some ("A", [14; 17])],
        [Oedge (Some (5, 3)) None true "cx"; Oedge (Some (6, 0)) None true "free"; Oedge (Some (5, 0)) (Some (4, 1)) false "bc"; Oedge (Some (5, 1)) (Some (5, 2)) false "tr"; Oedge (Some (6, 1)) (Some (4, 0)) false "ab"],
        [("k", [17; 16]); ("mixed", [13])]).
Proof.
  split; [apply soundb_ok; vm_compute; reflexivity|]. split; [apply nodupn_inv; reflexivity|]. split; [apply all_edgesb_ok; vm_compute; reflexivity|]. split; [|vm_compute; reflexivity].
  intros n nd [<-|[<-|[<-|[]]]] E; inversion E; subst nd; eexists _, _; (split; [reflexivity|]); (split; [reflexivity|]); try apply teq_refl;
    (split; [reflexivity|]; intros ix V; apply In_idxs in V; revert ix V; apply Forall_forall; vm_compute; repeat constructor).
Qed.

(** A collection with a [CopyNode] is refused. *)
Theorem C41_json_copy (R : csr) (ser : tensor R -> string) (h : @heap R) ns es b n nd r dim dt :
  sound h ns -> In n ns -> nth_error (hn h) n = Some nd -> o_pay nd = PCopy r dim dt -> nodes_to_json ser h ns es b = Raise.
Proof. exact (@json_copy R ser h ns es b n nd r dim dt). Qed.
Print Assumptions C41_json_copy.
Example C41_json_copy_ex : sound ex_g [0; 1; 2] /\ nodes_to_json ex_ser ex_g [0; 1; 2] [0; 1; 2; 3] [] = Raise.
Proof. split; [apply soundb_ok; vm_compute; reflexivity | vm_compute; reflexivity]. Qed.

(** The copy of a sound network is sound, whenever the first end of each edge is included. *)
Theorem C41_sound (R : csr) (h : @heap R) ns h' ns' : sound h ns -> NoDup ns -> first_ends h ns -> copied h ns h' ns' -> sound h' ns'.
Proof. exact (@copied_sound R h ns h' ns'). Qed.
Print Assumptions C41_sound.
Example C41_sound_ex : first_ends ex_g [0; 1; 2] /\ sound ex_g [0; 1; 2] /\ copied ex_g [0; 1; 2] ex_g [0; 1; 2].
Proof.
  split; [|split].
  - intros n k e ed m l Hn Hs He Hg. apply (@insideb_ok ex_g [0; 1; 2] eq_refl n k e ed m l Hn Hs He). left. exact Hg.
  - apply soundb_ok. vm_compute. reflexivity.
  - assert (sound ex_g [0; 1; 2]) as SO by (apply soundb_ok; vm_compute; reflexivity).
    assert (forall i, i < 3 -> nth i [0; 1; 2] 0 = i /\ In i [0; 1; 2]) as NT by (intros [|[|[|i]]] Hi; cbn; auto; lia).
    constructor; [apply nodupn_inv; reflexivity | reflexivity | | |].
    + intros i Hi. destruct (NT i Hi) as [-> I]. destruct (so_node SO I) as (nd & E & _). exists nd, nd. repeat split; auto. apply same_pay_refl.
    + intros i k e ed Hi Hs He. destruct (NT i Hi) as [Q I]. rewrite Q in *. destruct (so_edge SO I Hs) as (ed' & E & _ & D & _). assert (ed' = ed) by congruence. subst ed'. exists e, ed. split; [exact Hs|]. split; [exact E|]. split; [reflexivity|].
      assert (forall x, (forall m l, x = Some (m, l) -> In m [0; 1; 2]) -> x = move [0; 1; 2] [0; 1; 2] x) as MV.
      { intros [[m l]|] H; [|reflexivity]. pose proof (H m l eq_refl) as I'. cbn [move]. destruct (in_dec Nat.eq_dec m [0; 1; 2]); [|contradiction]. destruct I' as [<-|[<-|[<-|[]]]]; reflexivity. }
      split; [|split; [|exact D]]; apply MV; intros m l F; apply (@insideb_ok ex_g [0; 1; 2] eq_refl i k e ed m l I Hs He); [left|right]; exact F.
    + intros i k j l e1 e2 f1 f2 _ _ S1 S2 T1 T2. rewrite S1 in T1. rewrite S2 in T2. inversion T1; inversion T2; subst. reflexivity.
Qed.

(** [save_nodes] and [load_nodes], for nodes with at least one axis and no edge leaving the collection: a copy of the
    nodes in the order in which the library lists the keys of a group.  [es]: the edges in any order. *)
Theorem C41_file (R : csr) (keys : list string -> list string) (h : @heap R) ns es (h0 : @heap R) : (forall l, Permutation l (keys l)) ->
  sound h ns -> NoDup ns -> all_edges h ns es -> inside h ns -> (forall n nd, In n ns -> nth_error (hn h) n = Some nd -> pshape (o_pay nd) <> []) ->
  exists f h1, save_nodes h ns es = Ok (f, h1) /\ exists h' ns' order,
    load_nodes keys h0 f = Ok (h', ns') /\ Permutation ns order /\ keys (map node_name (seq 0 (length ns))) = map (fun n => node_name (nindex n ns)) order /\
    copied h order h' ns' /\ extends h0 h' /\ forall n, In n ns' -> length (hn h0) <= n.
Proof. intros K A B C D E. exact (@file_round R keys K h ns es A B C D E h0). Qed.
Print Assumptions C41_file.

(** Up to ten nodes keep their order when keys are listed alphabetically. *)
Theorem C41_file_order (R : csr) (keys : list string -> list string) (h : @heap R) ns es (h0 : @heap R) : (forall l, Permutation l (keys l)) ->
  sound h ns -> NoDup ns -> all_edges h ns es -> inside h ns -> (forall n nd, In n ns -> nth_error (hn h) n = Some nd -> pshape (o_pay nd) <> []) ->
  (forall l, keys l = sort String.leb l) -> length ns <= 10 ->
  exists f h1, save_nodes h ns es = Ok (f, h1) /\ exists h' ns', load_nodes keys h0 f = Ok (h', ns') /\ copied h ns h' ns'.
Proof. intros K A B C D E. exact (@file_order R keys K h ns es A B C D E h0). Qed.
Print Assumptions C41_file_order.
Example C41_file_ex : (forall l, Permutation l (sort String.leb l)) /\ sound ex_g [2; 0; 1] /\ NoDup [2; 0; 1] /\ all_edges ex_g [2; 0; 1] [3; 2; 1; 0] /\ inside ex_g [2; 0; 1] /\
  (forall n nd, In n [2; 0; 1] -> nth_error (hn ex_g) n = Some nd -> pshape (o_pay nd) <> []) /\
  match save_nodes ex_g [2; 0; 1] [3; 2; 1; 0] with
  | Ok (f, _) => match load_nodes (sort String.leb) ex_g f with Ok (h', ns') => Some (map (fun n => option_map (fun nd => (o_name nd, o_edges nd)) (nth_error (hn h') n)) ns', skipn 10 (he h')) | _ => None end
  | _ => None end =
  Some ([Some ("v", [11; 10]); Some ("v", [13]); Some ("copy", [13; 12; 11])],
        [Oedge (Some (3, 1)) None true "j"; Oedge (Some (3, 0)) (Some (5, 2)) false "e"; Oedge (Some (5, 1)) None true "out"; Oedge (Some (4, 0)) (Some (5, 0)) false "e"]).
Proof.
  split; [intros l; symmetry; apply sort_perm|]. split; [apply soundb_ok; vm_compute; reflexivity|]. split; [apply nodupn_inv; reflexivity|]. split; [apply all_edgesb_ok; vm_compute; reflexivity|]. split; [apply insideb_ok; vm_compute; reflexivity|].
  split; [|vm_compute; reflexivity]. intros n nd [<-|[<-|[<-|[]]]] E; inversion E; subst nd; discriminate.
Qed.

(** What [save_nodes] does to the objects: nodes are as before; edges keep the names used in the file (see the refutation). *)
Theorem C41_save_effect (R : csr) (h : @heap R) ns es f h' : sound h ns -> NoDup ns -> all_edges h ns es -> inside h ns -> save_nodes h ns es = Ok (f, h') ->
  hn h' = hn h /\ forall e, nth_error (he h') e = option_map (fun ed => if mem e es then Oedge (g_1 ed) (g_2 ed) (g_dangling ed) (edge_name (nindex e es)) else ed) (nth_error (he h) e).
Proof. intros A B C D. exact (@save_effect R h ns es A B C D f h'). Qed.
Print Assumptions C41_save_effect.
Example C41_save_effect_ex : match save_nodes ex_g [2; 0; 1] [3; 2; 1; 0] with Ok (_, h') => map g_name (he h') | _ => [] end = ["edge3"; "edge2"; "edge1"; "edge0"].
Proof. vm_compute. reflexivity. Qed.
