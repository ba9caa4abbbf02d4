(** * Properties C05-C09 and C45: flattening, splitting, reordering, connecting, removing *)
From Coq Require Import ZArith.
From Verif Require Import Prelude Algebra Tensor TensorFacts Einsum EinsumFacts NetworkFacts Graph GraphBase GraphContract GraphOps GraphValue GraphOuter GraphConnect GraphJoin GraphBetween GraphRetail GraphFuse GraphFlatten GraphTrace GraphSplit GraphProg GraphSched GraphLaws GraphRedirect GraphExamples.
Set Implicit Arguments.
Unset Strict Implicit.

(** C05: flatten_edges on edges shared by two nodes or trace edges of one node *)
Theorem C05_flatten_shared (R : csr) (iter : list nat -> list nat) (iter_perm : forall l, Permutation (iter l) l)
    es (s s' : @st R) f S a :
  wf s -> (forall c, In c es -> exists p, slot s p = Some c) ->
  (forall c ed, In c es -> s_edges s c = Some ed -> e_2 ed <> None) ->
  flatten_edges iter es s = (s', Some f) ->
  NoDup S -> (forall c p, In c es -> slot s p = Some c -> In (fst p) S) -> open_ok s S a ->
  netval s S a = netval s' S a.
Proof. exact (@flatten_shared_value R iter iter_perm es s s' f S a). Qed.
Print Assumptions C05_flatten_shared.

(** C05: dangling edges: the new index is the row-major combination of the old ones *)
Theorem C05_flatten_dangling (R : csr) (iter : list nat -> list nat) (iter_perm : forall l, Permutation (iter l) l)
    es (s s' : @st R) f S a :
  wf s -> (forall c, In c es -> exists p, slot s p = Some c) ->
  (forall c ed, In c es -> s_edges s c = Some ed -> e_2 ed = None) -> 2 <= length es ->
  flatten_edges iter es s = (s', Some f) ->
  NoDup S -> (forall c p, In c es -> slot s p = Some c -> In (fst p) S) -> open_ok s' S a -> a f < nprod (map (edim s) es) ->
  netval s' S a = netval s S (binds Nat.eq_dec a es (unravel (map (edim s) es) (a f))).
Proof. exact (@flatten_dangling_value R iter iter_perm es s s' f S a). Qed.
Print Assumptions C05_flatten_dangling.

(** C05: the flattened edge is new, has the product dimension and sits behind the kept edges *)
Theorem C05_flatten_structure (R : csr) (iter : list nat -> list nat) (iter_perm : forall l, Permutation (iter l) l)
    es (s s' : @st R) f :
  wf s -> (forall c, In c es -> exists p, slot s p = Some c) -> 2 <= length es ->
  flatten_edges iter es s = (s', Some f) ->
  wf s' /\ s_ne s <= f /\ edim s' f = nprod (map (edim s) es) /\
  forall n nd, s_nodes s n = Some nd -> exists nd', s_nodes s' n = Some nd' /\
    ((forall c, In c es -> ~ In c (n_edges nd)) /\ nd' = nd \/
     exists k, 1 <= k <= 2 /\ (forall c, In c es -> In c (n_edges nd)) /\ n_edges nd' = kept_of es (n_edges nd) ++ repeat f k).
Proof. exact (@flatten_structure R iter iter_perm es s s' f). Qed.
Print Assumptions C05_flatten_structure.

Example C05_example :
  let m := flatten_edges (R := Z_csr) idl [9; 10] in
  wf ex_s /\ m ex_s = (run m ex_s, Some 15) /\ edges_at (run m ex_s) 0 = Some [11; 11; 15] /\ edges_at (run m ex_s) 1 = Some [12; 15] /\
  netval (run m ex_s) [0; 1; 2] (fun _ => 1) = 4750%Z.
Proof. cbv zeta. split; [exact ex_wf|]. split; [apply run_eq; vm_compute; reflexivity|]. repeat split; vm_compute; reflexivity. Qed.

Definition ex_d_ops : list (@op Z_csr) := [OpNode (zt 1 [2; 3; 2]) None].
Definition ex_d : @st Z_csr := run (exec_ops idl ex_d_ops) (@empty_st Z_csr).
Lemma ex_d_wf : wf ex_d.
Proof. apply (@exec_ops_wf Z_csr idl idl_perm ex_d_ops (@empty_st Z_csr) ex_d tt empty_wf); apply run_eq; vm_compute; reflexivity. Qed.
(** dangling edges flattened in the order 2, 0 *)
Example C05_example_dangling :
  let m := flatten_edges (R := Z_csr) idl [2; 0] in
  wf ex_d /\ m ex_d = (run m ex_d, Some 3) /\ edges_at (run m ex_d) 0 = Some [1; 3] /\
  entries (run m ex_d) 0 = Some ([3; 4], [1; 7; 2; 8; 3; 9; 4; 10; 5; 11; 6; 12]%Z).
Proof. cbv zeta. split; [exact ex_d_wf|]. split; [apply run_eq; vm_compute; reflexivity|]. repeat split; vm_compute; reflexivity. Qed.

(** C06: split_edge *)
Theorem C06_split_shared (R : csr) (iter : list nat -> list nat) (iter_perm : forall l, Permutation (iter l) l)
    e sh nms (s s' : @st R) gs S a ed :
  wf s -> (exists p, slot s p = Some e) -> s_edges s e = Some ed -> e_2 ed <> None ->
  split_edge iter e sh nms s = (s', Some gs) ->
  NoDup S -> (forall p, slot s p = Some e -> In (fst p) S) -> open_ok s S a ->
  netval s S a = netval s' S a.
Proof. exact (@split_shared_value R iter iter_perm e sh nms s s' gs S a ed). Qed.
Print Assumptions C06_split_shared.

Theorem C06_split_dangling (R : csr) (iter : list nat -> list nat) (iter_perm : forall l, Permutation (iter l) l)
    e sh nms (s s' : @st R) gs S a ed :
  wf s -> (exists p, slot s p = Some e) -> s_edges s e = Some ed -> e_2 ed = None -> length sh <> 1 ->
  split_edge iter e sh nms s = (s', Some gs) ->
  NoDup S -> (forall p, slot s p = Some e -> In (fst p) S) -> open_ok s S a -> a e < edim s e ->
  netval s S a = netval s' S (binds Nat.eq_dec a gs (unravel sh (a e))).
Proof. exact (@split_dangling_value R iter iter_perm e sh nms s s' gs S a ed). Qed.
Print Assumptions C06_split_dangling.

Theorem C06_split_structure (R : csr) (iter : list nat -> list nat) (iter_perm : forall l, Permutation (iter l) l)
    e sh nms (s s' : @st R) gs :
  wf s -> (exists p, slot s p = Some e) -> length sh <> 1 ->
  split_edge iter e sh nms s = (s', Some gs) ->
  wf s' /\ nprod sh = edim s e /\ NoDup gs /\ (forall g, In g gs -> s_ne s <= g) /\ map (edim s') gs = sh /\
  forall n nd, s_nodes s n = Some nd -> exists nd', s_nodes s' n = Some nd' /\
    (~ In e (n_edges nd) /\ nd' = nd \/
     exists k, 1 <= k <= 2 /\ In e (n_edges nd) /\ n_edges nd' = kept_of [e] (n_edges nd) ++ concat (repeat gs k)).
Proof. exact (@split_structure R iter iter_perm e sh nms s s' gs). Qed.
Print Assumptions C06_split_structure.

(** splitting a flattened edge into the original dimensions recovers the entries of every node *)
Theorem C06_flatten_split (R : csr) (iter : list nat -> list nat) (iter_perm : forall l, Permutation (iter l) l)
    es (s s1 : @st R) f nms s2 gs n nd nd2 b :
  wf s -> (forall c, In c es -> exists p, slot s p = Some c) -> 2 <= length es ->
  flatten_edges iter es s = (s1, Some f) ->
  split_edge iter f (map (edim s) es) nms s1 = (s2, Some gs) ->
  s_nodes s n = Some nd -> s_nodes s2 n = Some nd2 ->
  (forall p e, slot s p = Some e -> b e < edim s e) ->
  (nd2 = nd /\ (forall c, In c es -> ~ In c (n_edges nd)) \/
   exists k, 1 <= k <= 2 /\ (forall c, In c es -> In c (n_edges nd)) /\ n_edges nd2 = kept_of es (n_edges nd) ++ concat (repeat gs k)) /\
  elt (n_t nd2) (map (binds Nat.eq_dec b gs (map b es)) (n_edges nd2)) = elt (n_t nd) (map b (n_edges nd)).
Proof. exact (@flatten_split R iter iter_perm es s s1 f nms s2 gs n nd nd2 b). Qed.
Print Assumptions C06_flatten_split.

Example C06_example :
  let m := bind (flatten_edges (R := Z_csr) idl [9; 10]) (fun f => split_edge rvl f [2; 3] None) in
  wf ex_s /\ m ex_s = (run m ex_s, Some [20; 21]) /\ edges_at (run m ex_s) 0 = Some [11; 11; 20; 21] /\ edges_at (run m ex_s) 1 = Some [12; 20; 21] /\
  entries (run m ex_s) 1 = Some ([2; 2; 3], [-3; 1; 5; -1; 3; 7; -2; 2; 6; 0; 4; 8]%Z).
Proof. cbv zeta. split; [exact ex_wf|]. split; [apply run_eq; vm_compute; reflexivity|]. repeat split; vm_compute; reflexivity. Qed.
Example C06_example_trace :
  let m := split_edge (R := Z_csr) idl 11 [2; 1] None in
  wf ex_s /\ m ex_s = (run m ex_s, Some [17; 18]) /\ edges_at (run m ex_s) 0 = Some [9; 10; 17; 18; 17; 18] /\
  netval (run m ex_s) [0; 1; 2] (fun _ => 1) = 4750%Z.
Proof. cbv zeta. split; [exact ex_wf|]. split; [apply run_eq; vm_compute; reflexivity|]. repeat split; vm_compute; reflexivity. Qed.

(** C07: every history of calls none of which raised *)
Theorem C07_history (R : csr) (iter : list nat -> list nat) (iter_perm : forall l, Permutation (iter l) l) l (s : @st R) (x : unit) :
  exec_ops iter l (@empty_st R) = (s, Some x) -> wf s.
Proof. intros H. exact (exec_ops_wf iter_perm empty_wf H). Qed.
Print Assumptions C07_history.
Theorem C07_invariant (R : csr) (iter : list nat -> list nat) (iter_perm : forall l, Permutation (iter l) l) l (s s' : @st R) (x : unit) :
  wf s -> exec_ops iter l s = (s', Some x) -> wf s'.
Proof. exact (exec_ops_wf iter_perm (l := l) (s := s) (s' := s') (x := x)). Qed.
Print Assumptions C07_invariant.

(** what [wf] says, in terms of slots *)
Theorem C07_meaning (R : csr) (s : @st R) n nd k e :
  wf s -> s_nodes s n = Some nd -> nth_error (n_edges nd) k = Some e ->
  k < rank (n_t nd) /\ exists ed, s_edges s e = Some ed /\ e_dis ed = false /\ In (n, k) (ends ed) /\
    forall q, In q (ends ed) -> slot s q = Some e /\ dimat s q = dimat s (n, k).
Proof. exact (@wf_meaning R s n nd k e). Qed.
Print Assumptions C07_meaning.

Definition ex_hist : list (@op Z_csr) :=
  ex_ops ++ [OpReorderAxes 0 [2; 0; 3; 1]; OpFlatten [(0, 1); (0, 3)]; OpContract (0, 0) None; OpSplit (1, 1) [2; 3] None;
             OpDisconnect (2, 0); OpRemove 1; OpConnect (1, 0) (2, 0); OpOuter 2 1 None; OpBetween 4 4 true [] None].
Example C07_example : let m := exec_ops idl ex_hist in
  m (@empty_st Z_csr) = (run m (@empty_st Z_csr), Some tt) /\ edges_at (run m (@empty_st Z_csr)) 5 = Some [8; 29; 31].
Proof. cbv zeta. split; [apply run_eq|]; vm_compute; reflexivity. Qed.

(** C08 *)
Theorem C08_reorder_axes (R : csr) n perm (s s' : @st R) (x : unit) :
  wf s -> reorder_axes n perm s = (s', Some x) ->
  wf s' /\ exists nd, s_nodes s n = Some nd /\ is_perm (length (n_edges nd)) perm /\
    (forall m, s_nodes s' m = if Nat.eqb m n then Some (Node (transpose (n_t nd) perm) (gather 0 (n_edges nd) perm) (gather 0 (n_names nd) perm)) else s_nodes s m) /\
    forall S a, ~ In n S -> netval s (n :: S) a = netval s' (n :: S) a.
Proof. exact (@reorder_axes_law R n perm s s' x). Qed.
Print Assumptions C08_reorder_axes.

Theorem C08_reorder_edges (R : csr) n order (s s' : @st R) (x : unit) :
  wf s -> reorder_edges n order s = (s', Some x) ->
  wf s' /\ exists nd nd', s_nodes s n = Some nd /\ s_nodes s' n = Some nd' /\ n_edges nd' = order /\ Permutation order (n_edges nd) /\
    (forall m, m <> n -> s_nodes s' m = s_nodes s m) /\
    (forall a, elt (n_t nd') (map a order) = elt (n_t nd) (map a (n_edges nd))) /\
    forall S a, ~ In n S -> netval s (n :: S) a = netval s' (n :: S) a.
Proof. exact (@reorder_edges_law R n order s s' x). Qed.
Print Assumptions C08_reorder_edges.

Example C08_example :
  let m := reorder_axes (R := Z_csr) 0 [2; 0; 3; 1] in let m' := reorder_edges (R := Z_csr) 1 [12; 10; 9] in
  wf ex_s /\ m ex_s = (run m ex_s, Some tt) /\ edges_at (run m ex_s) 0 = Some [11; 9; 11; 10] /\
  netval (run m ex_s) [0; 1; 2] (fun _ => 1) = 4750%Z /\
  m' ex_s = (run m' ex_s, Some tt) /\ edges_at (run m' ex_s) 1 = Some [12; 10; 9].
Proof.
  cbv zeta. split; [exact ex_wf|]. split; [apply run_eq; vm_compute; reflexivity|]. split; [vm_compute; reflexivity|]. split; [vm_compute; reflexivity|].
  split; [apply run_eq; vm_compute; reflexivity|vm_compute; reflexivity].
Qed.

(** C09 *)
Theorem C09_connect_iff (R : csr) (s : @st R) p1 p2 e1 e2 d1 d2 :
  wf s -> slot s p1 = Some e1 -> slot s p2 = Some e2 -> s_edges s e1 = Some d1 -> s_edges s e2 = Some d2 ->
  (exists s' e, connect e1 e2 s = (s', Some e)) <-> (e_2 d1 = None /\ e_2 d2 = None /\ p1 <> p2 /\ dimat s p1 = dimat s p2).
Proof. exact (@connect_total R s p1 p2 e1 e2 d1 d2). Qed.
Print Assumptions C09_connect_iff.
Theorem C09_connect_reject (R : csr) (s s' : @st R) p1 p2 e1 e2 :
  wf s -> slot s p1 = Some e1 -> slot s p2 = Some e2 -> connect e1 e2 s = (s', None) -> s' = s.
Proof. exact (@connect_reject R s s' p1 p2 e1 e2). Qed.
Print Assumptions C09_connect_reject.
Theorem C09_connect_effect (R : csr) (s s' : @st R) p1 p2 e1 e2 e :
  wf s -> slot s p1 = Some e1 -> slot s p2 = Some e2 -> connect e1 e2 s = (s', Some e) ->
  wf s' /\ same_nodes s s' /\ slot s' p1 = Some e /\ slot s' p2 = Some e /\
  (forall p, p <> p1 -> p <> p2 -> slot s' p = slot s p) /\
  (forall S a, NoDup S -> In (fst p1) S -> In (fst p2) S ->
     netval s' S a = nsum (edim s e1) (fun i => netval s S (upd Nat.eq_dec (upd Nat.eq_dec a e1 i) e2 i))).
Proof. exact (@connect_effect R s s' p1 p2 e1 e2 e). Qed.
Print Assumptions C09_connect_effect.
Theorem C09_connect_disconnect (R : csr) (s s1 s2 : @st R) p1 p2 e1 e2 e f1 f2 :
  wf s -> slot s p1 = Some e1 -> slot s p2 = Some e2 ->
  connect e1 e2 s = (s1, Some e) -> disconnect e s1 = (s2, Some (f1, f2)) ->
  same_nodes s s2 /\ wf s2 /\ slot s2 p1 = Some f1 /\ slot s2 p2 = Some f2 /\ dangles s2 p1 /\ dangles s2 p2 /\
  (forall p, p <> p1 -> p <> p2 -> slot s2 p = slot s p) /\ (forall x, x < s_ne s -> s_edges s2 x = s_edges s x).
Proof. exact (@connect_disconnect R s s1 s2 p1 p2 e1 e2 e f1 f2). Qed.
Print Assumptions C09_connect_disconnect.
Theorem C09_disconnect_effect (R : csr) (s : @st R) p e ed :
  wf s -> slot s p = Some e -> s_edges s e = Some ed -> e_2 ed <> None ->
  exists s' f1 f2 p1 p2, disconnect e s = (s', Some (f1, f2)) /\ wf s' /\ same_nodes s s' /\ p1 <> p2 /\
    slot s p1 = Some e /\ slot s p2 = Some e /\ slot s' p1 = Some f1 /\ slot s' p2 = Some f2 /\ dangles s' p1 /\ dangles s' p2 /\
    (forall q, q <> p1 -> q <> p2 -> slot s' q = slot s q) /\
    (forall S a, NoDup S -> In (fst p1) S -> In (fst p2) S ->
       netval s S a = nsum (edim s e) (fun i => netval s' S (upd Nat.eq_dec (upd Nat.eq_dec a f1 i) f2 i))).
Proof. exact (@disconnect_effect R s p e ed). Qed.
Print Assumptions C09_disconnect_effect.

Example C09_example :
  let m := disconnect (R := Z_csr) 11 in let m' := connect (R := Z_csr) 13 8 in
  wf ex_s /\ slot ex_s (0, 2) = Some 11 /\ slot ex_s (0, 3) = Some 11 /\ m ex_s = (run m ex_s, Some (13, 14)) /\
  m' (run m ex_s) = (run m' (run m ex_s), Some 15) /\ edges_at (run m' (run m ex_s)) 0 = Some [9; 10; 14; 15] /\
  snd (connect (R := Z_csr) 11 8 ex_s) = None.
Proof.
  cbv zeta. split; [exact ex_wf|]. split; [vm_compute; reflexivity|]. split; [vm_compute; reflexivity|].
  split; [apply run_eq; vm_compute; reflexivity|]. split; [apply run_eq; vm_compute; reflexivity|]. split; vm_compute; reflexivity.
Qed.

(** C45: remove_node cuts exactly the edges to other nodes, and reports the neighbour's new edge by axis *)
Theorem C45_remove_node (R : csr) n (s s' : @st R) l nd :
  wf s -> s_nodes s n = Some nd -> length (n_names nd) = rank (n_t nd) -> remove_node n s = (s', Some l) ->
  wf s' /\ same_nodes s s' /\
  (forall p q, cut_by s n p q -> dangles s' p) /\
  (forall p c, slot s p = Some c -> (forall q, ~ cut_by s n p q) -> slot s' p = Some c) /\
  (forall c, c < s_ne s -> s_edges s' c = s_edges s c) /\
  (forall j f, In (j, f) l <-> exists q, cut_by s n (n, j) q /\ slot s' q = Some f).
Proof. exact (@remove_node_law R n s s' l nd). Qed.
Print Assumptions C45_remove_node.

Example C45_example :
  let m := remove_node (R := Z_csr) 1 in
  wf ex_s /\ m ex_s = (run m ex_s, Some [(0, 13); (1, 15); (2, 18)]) /\
  edges_at (run m ex_s) 0 = Some [15; 13; 11; 11] /\ edges_at (run m ex_s) 2 = Some [18; 8] /\ edges_at (run m ex_s) 1 = Some [14; 16; 17].
Proof. cbv zeta. split; [exact ex_wf|]. split; [apply run_eq; vm_compute; reflexivity|]. repeat split; vm_compute; reflexivity. Qed.

(** C45: redirect_edge onto a dangling axis of equal dimension of another node succeeds and moves one end.
    Without the two conditions it can break the graph: R_Graph.v redirect_edge_*_refuted. *)
Theorem C45_redirect_edge (R : csr) (s : @st R) e ed old new k :
  wf s -> slot s (old, k) = Some e -> s_edges s e = Some ed -> is_trace_edge ed = false ->
  old <> new -> dangles s (new, k) -> dimat s (new, k) = dimat s (old, k) ->
  exists s', redirect_edge e new old s = (s', Some tt) /\ wf s' /\ same_nodes s s' /\
    slot s' (new, k) = Some e /\ dangles s' (old, k) /\ (forall p, p <> (new, k) -> p <> (old, k) -> slot s' p = slot s p) /\
    (forall c, c < s_ne s -> c <> e -> s_edges s' c = s_edges s c) /\ edim s' e = edim s e.
Proof. exact (@redirect_law R s e ed old new k). Qed.
Print Assumptions C45_redirect_edge.

Definition ex_rd : @st Z_csr := run (exec_ops idl (ex_ops ++ [OpNode (zt 1 [5; 3]) None])) (@empty_st Z_csr).
Example C45_redirect_example :
  let m := redirect_edge (R := Z_csr) 10 3 0 in
  wf ex_rd /\ slot ex_rd (0, 1) = Some 10 /\ dangles ex_rd (3, 1) /\ dimat ex_rd (3, 1) = dimat ex_rd (0, 1) /\
  m ex_rd = (run m ex_rd, Some tt) /\ edges_at (run m ex_rd) 3 = Some [13; 10] /\ edges_at (run m ex_rd) 0 = Some [9; 15; 11; 11].
Proof.
  cbv zeta. split; [eapply (@exec_ops_wf Z_csr idl idl_perm _ (@empty_st Z_csr) ex_rd tt empty_wf); apply run_eq; vm_compute; reflexivity|].
  split; [vm_compute; reflexivity|]. split; [exists 14; split; vm_compute; reflexivity|]. split; [vm_compute; reflexivity|].
  split; [apply run_eq; vm_compute; reflexivity|]. split; vm_compute; reflexivity.
Qed.

(** C45: a trace edge moves to two dangling axes of another node, and the old node gets a new trace edge *)
Theorem C45_redirect_trace_edge (R : csr) (s : @st R) e old new a1 a2 :
  wf s -> slot s (old, a1) = Some e -> s_edges s e = Some (Edge old a1 (Some (old, a2)) false) ->
  old <> new -> dangles s (new, a1) -> dangles s (new, a2) -> dimat s (new, a1) = dimat s (old, a1) -> dimat s (new, a2) = dimat s (old, a2) ->
  exists s' f, redirect_edge e new old s = (s', Some tt) /\ wf s' /\ same_nodes s s' /\
    slot s' (new, a1) = Some e /\ slot s' (new, a2) = Some e /\ s_edges s' e = Some (Edge new a1 (Some (new, a2)) false) /\
    slot s' (old, a1) = Some f /\ slot s' (old, a2) = Some f /\ s_edges s' f = Some (Edge old a1 (Some (old, a2)) false) /\ s_ne s <= f /\
    (forall p, p <> (new, a1) -> p <> (new, a2) -> p <> (old, a1) -> p <> (old, a2) -> slot s' p = slot s p) /\
    (forall c, c < s_ne s -> c <> e -> s_edges s' c = s_edges s c) /\ edim s' e = edim s e.
Proof. exact (@redirect_trace_law R s e old new a1 a2). Qed.
Print Assumptions C45_redirect_trace_edge.
(** C45: an edge that does not end at the old node: redirect_edge raises and nothing has changed *)
Theorem C45_redirect_reject (R : csr) (s : @st R) e ed old new :
  s_edges s e = Some ed -> (forall k, ~ In (old, k) (ends ed)) -> redirect_edge e new old s = (s, None).
Proof. exact (@redirect_reject R s e ed old new). Qed.
Print Assumptions C45_redirect_reject.
Definition ex_rt : @st Z_csr := run (exec_ops idl [OpNode (zt 1 [5; 3; 3]) None; OpNode (zt 2 [2; 3; 3]) None; OpConnect (0, 1) (0, 2)]) (@empty_st Z_csr).
Example C45_redirect_trace_example :
  let m := redirect_edge (R := Z_csr) 6 1 0 in
  wf ex_rt /\ slot ex_rt (0, 1) = Some 6 /\ s_edges ex_rt 6 = Some (Edge 0 1 (Some (0, 2)) false) /\ dangles ex_rt (1, 1) /\ dangles ex_rt (1, 2) /\
  dimat ex_rt (1, 1) = dimat ex_rt (0, 1) /\ dimat ex_rt (1, 2) = dimat ex_rt (0, 2) /\
  m ex_rt = (run m ex_rt, Some tt) /\ edges_at (run m ex_rt) 0 = Some [0; 7; 7] /\ edges_at (run m ex_rt) 1 = Some [3; 6; 6] /\
  snd (redirect_edge (R := Z_csr) 6 0 1 ex_rt) = None.
Proof.
  cbv zeta. split; [eapply (@exec_ops_wf Z_csr idl idl_perm _ (@empty_st Z_csr) ex_rt tt empty_wf); apply run_eq; vm_compute; reflexivity|].
  split; [vm_compute; reflexivity|]. split; [vm_compute; reflexivity|]. split; [exists 4; split; vm_compute; reflexivity|]. split; [exists 5; split; vm_compute; reflexivity|].
  split; [vm_compute; reflexivity|]. split; [vm_compute; reflexivity|]. split; [apply run_eq; vm_compute; reflexivity|]. split; [vm_compute; reflexivity|]. split; vm_compute; reflexivity.
Qed.
