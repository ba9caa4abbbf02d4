(** * Serial: saving and loading networks
    (network_operations.py:850-983 [nodes_to_json], [nodes_from_json]; utils.py:28-132 [save_nodes], [load_nodes];
    network_components.py:440-520, 663-729, 911-961, 1177-1217, 1270-1280).

    Objects live in a heap of nodes and edges with their names; an edge end may be missing (loading creates such
    edges).  The texts written by [json] and the bytes of hdf5 are not modelled: a document is the dictionary given
    to [json.dumps], a file the groups and datasets.  Sets of edges and the keys of a file come in any order. *)
From Coq Require Import String Ascii DecimalString.
From Verif Require Import Prelude Res Algebra Tensor.
Set Implicit Arguments.
Unset Strict Implicit.
Open Scope list_scope.
Open Scope nat_scope.

Section Serial.
  Context {R : csr}.

  (** a [Node] has a tensor, a [CopyNode] a rank, a dimension and a dtype *)
  Inductive payload := PNode (t : tensor R) | PCopy (rank dimension : nat) (dtype : string).
  Definition pshape (p : payload) : list nat := match p with PNode t => shape t | PCopy r d _ => repeat d r end.
  Record onode := Onode { o_name : string; o_axes : list string; o_backend : string; o_pay : payload; o_edges : list nat }.
  (** [_nodes] and [_axes], [_is_dangling], [_name] *)
  Record oedge := Oedge { g_1 : option (nat * nat); g_2 : option (nat * nat); g_dangling : bool; g_name : string }.
  Record heap := Heap { hn : list onode; he : list oedge }.

  Definition node_at (h : heap) (n : nat) : res onode := match nth_error (hn h) n with Some x => Ok x | None => Raise end.
  Definition edge_at (h : heap) (e : nat) : res oedge := match nth_error (he h) e with Some x => Ok x | None => Raise end.
  Definition upd {A} (l : list A) (k : nat) (x : A) : list A := map (fun j => match nth_error l j with Some y => if j =? k then x else y | None => x end) (seq 0 (length l)).
  Definition is_none {A} (x : option A) : bool := match x with None => true | Some _ => false end.
  (** [Edge(...)], network_components.py:989-1022 *)
  Definition new_edge (h : heap) (a b : option (nat * nat)) (name : string) : heap * nat :=
    (Heap (hn h) (he h ++ [Oedge a b (is_none b) name]), length (he h)).
  Fixpoint nodups (l : list string) : bool := match l with [] => true | x :: r => negb (existsb (String.eqb x) r) && nodups r end.
  (** [Node(...)] / [CopyNode(...)] with axis names, network_components.py:53-99: the fresh edges are named after the axes *)
  Definition new_node (h : heap) (name : string) (axes : list string) (backend : string) (p : payload) : res (heap * nat) :=
    guard (nodups axes && (length axes =? length (pshape p)))
      (let n := length (hn h) in
       let k := length (he h) in
       let es := map (fun x => Oedge (Some (n, fst x)) None true (snd x)) (combine (seq 0 (length axes)) axes) in
       Ok (Heap (hn h ++ [Onode name axes backend p (seq k (length axes))]) (he h ++ es), n)).
  (** network_components.py:141-164 [add_edge] *)
  Definition add_edge (h : heap) (n e k : nat) (override : bool) : res heap :=
    rbind (node_at h n) (fun nd =>
    match nth_error (o_edges nd) k with
    | None => Raise
    | Some old =>
        rbind (edge_at h old) (fun ed =>
        guard ((k <? length (pshape (o_pay nd))) && (g_dangling ed || override))
          (Ok (Heap (upd (hn h) n (Onode (o_name nd) (o_axes nd) (o_backend nd) (o_pay nd) (upd (o_edges nd) k e))) (he h))))
    end).

  (** ** JSON *)
  (** the backend's text for a tensor *)
  Variable ser : tensor R -> string.
  Variable deser : string -> option (tensor R).
  Record jnode := Jnode { j_name : string; j_axes : list string; j_backend : string; j_tensor : string }.
  Record jedge := Jedge { je_1 : option (nat * nat); je_2 : option (nat * nat); je_name : string }.
  Record doc := Doc { d_nodes : list (nat * jnode); d_edges : list (nat * jedge); d_binding : list (string * list nat) }.

  (** 912-919: [node_id_dict], the last position of a node *)
  Fixpoint last_index (k : nat) (ns : list nat) (n : nat) : option nat :=
    match ns with
    | [] => None
    | m :: r => match last_index (S k) r n with Some i => Some i | None => if m =? n then Some k else None end
    end.
  (** network_components.py:495-506, 663-670, 944-949 [to_serial_dict] *)
  Definition node_dict (h : heap) (n : nat) : res jnode :=
    rbind (node_at h n) (fun nd =>
    match o_pay nd with
    | PNode t => Ok (Jnode (o_name nd) (o_axes nd) (o_backend nd) (ser t))
    | PCopy _ _ _ => Raise
    end).
  (** 924-931: the connection to a node that is not included is dropped *)
  Definition json_end (ns : list nat) (x : option (nat * nat)) : option (nat * nat) :=
    match x with Some (n, a) => match last_index 0 ns n with Some i => Some (i, a) | None => None end | None => None end.
  Definition edge_dict (h : heap) (ns : list nat) (e : nat) : res jedge :=
    rbind (edge_at h e) (fun ed => Ok (Jedge (json_end ns (g_1 ed)) (json_end ns (g_2 ed)) (g_name ed))).
  Definition numbered {A} (l : list A) : list (nat * A) := combine (seq 0 (length l)) l.
  (** 850-877 [_build_serial_binding]: edges not included are left out, keys without edges too *)
  Definition serial_binding (es : list nat) (b : list (string * list nat)) : list (string * list nat) :=
    filter (fun x => negb (length (snd x) =? 0))
      (map (fun x => (fst x, flat_map (fun e => match last_index 0 es e with Some i => [i] | None => [] end) (snd x))) b).
  (** 880-942 [nodes_to_json]; [es]: the set [get_all_edges(nodes)] in the order of iteration *)
  Definition nodes_to_json (h : heap) (ns es : list nat) (b : list (string * list nat)) : res doc :=
    rbind (mapr (node_dict h) ns) (fun js =>
    rbind (mapr (edge_dict h ns) es) (fun je =>
    Ok (Doc (numbered js) (numbered je) (serial_binding es b)))).

  Definition lookup {K V} (dec : K -> K -> bool) (d : list (K * V)) (k : K) : option V :=
    match find (fun x => dec (fst x) k) d with Some x => Some (snd x) | None => None end.
  (** 963-966: the nodes; network_components.py:673-684 [from_serial_dict] *)
  Fixpoint load_jnodes (h : heap) (l : list (nat * jnode)) : res (heap * list (nat * nat)) :=
    match l with
    | [] => Ok (h, [])
    | (i, j) :: r =>
        match deser (j_tensor j) with
        | None => Raise
        | Some t =>
            rbind (new_node h (j_name j) (j_axes j) (j_backend j) (PNode t)) (fun x =>
            rbind (load_jnodes (fst x) r) (fun y => Ok (fst y, (i, snd x) :: snd y)))
        end
    end.
  Definition put_end (x : option (nat * nat)) (e : nat) (override : bool) (h : heap) : res heap :=
    match x with Some (n, a) => add_edge h n e a override | None => Ok h end.
  (** 967-978: the edges *)
  Definition load_end (ids : list (nat * nat)) (x : option (nat * nat)) : option (nat * nat) :=
    match x with Some (i, a) => match lookup Nat.eqb ids i with Some n => Some (n, a) | None => None end | None => None end.
  Fixpoint load_jedges (h : heap) (ids : list (nat * nat)) (l : list (nat * jedge)) : res (heap * list (nat * nat)) :=
    match l with
    | [] => Ok (h, [])
    | (i, j) :: r =>
        let a := load_end ids (je_1 j) in
        let b := load_end ids (je_2 j) in
        let (h1, e) := new_edge h a b (je_name j) in
        rbind (put_end a e true h1) (fun h2 =>
        rbind (put_end b e true h2) (fun h3 =>
        rbind (load_jedges h3 ids r) (fun y => Ok (fst y, (i, e) :: snd y))))
    end.
  (** 945-983 [nodes_from_json]: the nodes and the bindings *)
  Definition load_binding (ids : list (nat * nat)) (b : list (string * list nat)) : res (list (string * list nat)) :=
    mapr (fun x => rbind (mapr (fun i => match lookup Nat.eqb ids i with Some e => Ok e | None => Raise end) (snd x)) (fun l => Ok (fst x, l))) b.
  Definition nodes_from_json (h : heap) (d : doc) : res (heap * list nat * list (string * list nat)) :=
    rbind (load_jnodes h (d_nodes d)) (fun x =>
    rbind (load_jedges (fst x) (snd x) (d_edges d)) (fun y =>
    rbind (load_binding (snd y) (d_binding d)) (fun b => Ok (fst y, map snd (snd x), b)))).

  (** ** HDF5 *)
  Definition digits (n : nat) : string := NilEmpty.string_of_uint (Nat.to_uint n).
  Definition node_name (n : nat) : string := String.append "node" (digits n).
  Definition edge_name (n : nat) : string := String.append "edge" (digits n).
  (** axis names are stored as the number 123456789 when there are none: [None] *)
  Record fnode := Fnode { f_name : string; f_backend : string; f_shape : list nat; f_axes : option (list string); f_edges : list string; f_pay : (tensor R + string)%type }.
  Record fedge := Fedge { fe_1 : string * nat; fe_2 : option (string * nat); fe_name : string }.
  Record file := File { fl_nodes : list (string * fnode); fl_edges : list (string * fedge); fl_node_names : list string; fl_edge_names : list string }.

  Definition set_node_name (h : heap) (n : nat) (name : string) : heap :=
    match nth_error (hn h) n with
    | Some nd => Heap (upd (hn h) n (Onode name (o_axes nd) (o_backend nd) (o_pay nd) (o_edges nd))) (he h)
    | None => h
    end.
  Definition set_edge_name (h : heap) (e : nat) (name : string) : heap :=
    match nth_error (he h) e with Some ed => Heap (hn h) (upd (he h) e (Oedge (g_1 ed) (g_2 ed) (g_dangling ed) name)) | None => h end.
  (** network_components.py:469-491, 701-708, 911-919 [_save_node] *)
  Definition save_node (h : heap) (n : nat) : res fnode :=
    rbind (node_at h n) (fun nd =>
    rbind (mapr (fun e => rbind (edge_at h e) (fun ed => Ok (g_name ed))) (o_edges nd)) (fun en =>
    Ok (Fnode (o_name nd) (o_backend nd) (pshape (o_pay nd)) (match o_axes nd with [] => None | l => Some l end) en
          (match o_pay nd with PNode t => inl t | PCopy _ _ d => inr d end)))).
  (** 1177-1189 [_save_edge] *)
  Definition named_end (h : heap) (x : option (nat * nat)) : res (string * nat) :=
    match x with Some (n, a) => rbind (node_at h n) (fun nd => Ok (o_name nd, a)) | None => Raise end.
  Definition save_edge (h : heap) (e : nat) : res fedge :=
    rbind (edge_at h e) (fun ed =>
    rbind (named_end h (g_1 ed)) (fun a =>
    if g_dangling ed then Ok (Fedge a None (g_name ed))
    else rbind (named_end h (g_2 ed)) (fun b => Ok (Fedge a (Some b) (g_name ed))))).
  (** utils.py:76-80: the edges of one node that start at it; [left]: the list [edges] *)
  Fixpoint save_edges (h : heap) (n : nat) (es left : list nat) : res (list (string * fedge) * list nat) :=
    match es with
    | [] => Ok ([], left)
    | e :: r =>
        rbind (edge_at h e) (fun ed =>
        match g_1 ed with
        | None => Raise
        | Some (m, _) =>
            if (m =? n) && mem e left
            then rbind (save_edge h e) (fun f => rbind (save_edges h n r (remove Nat.eq_dec e left)) (fun x => Ok ((g_name ed, f) :: fst x, snd x)))
            else save_edges h n r left
        end)
    end.
  (** utils.py:73-80 *)
  Fixpoint save_all (h : heap) (ns left : list nat) : res (list (string * fnode) * list (string * fedge) * list nat) :=
    match ns with
    | [] => Ok ([], [], left)
    | n :: r =>
        rbind (node_at h n) (fun nd =>
        rbind (save_node h n) (fun f =>
        rbind (save_edges h n (o_edges nd) left) (fun x =>
        rbind (save_all h r (snd x)) (fun y => Ok ((o_name nd, f) :: fst (fst y), fst x ++ snd (fst y), snd y)))))
    end.
  Definition name_of (h : heap) (n : nat) : string := match nth_error (hn h) n with Some nd => o_name nd | None => EmptyString end.
  Definition edge_name_of (h : heap) (e : nat) : string := match nth_error (he h) e with Some ed => g_name ed | None => EmptyString end.
  (** utils.py:38: nothing outside is reachable, that is, no edge leaves the collection *)
  Definition closed (h : heap) (ns : list nat) : bool :=
    forallb (fun n => match nth_error (hn h) n with
      | None => false
      | Some nd => forallb (fun e => match nth_error (he h) e with
          | None => false
          | Some ed => forallb (fun x => match x with Some (m, _) => mem m ns | None => true end) [g_1 ed; g_2 ed]
          end) (o_edges nd)
      end) ns.
  Fixpoint nodupn (l : list nat) : bool := match l with [] => true | x :: r => negb (mem x r) && nodupn r end.
  Definition set_names {A} (f : heap -> nat -> A -> heap) (h : heap) (l : list (nat * A)) : heap := fold_left (fun h x => f h (fst x) (snd x)) l h.
  (** utils.py:28-87 [save_nodes]: the file and the heap afterwards; [es]: the list of the set [get_all_edges(nodes)] *)
  Definition save_nodes (h : heap) (ns es : list nat) : res (file * heap) :=
    guard (closed h ns && nodupn ns)
      (let old_nodes := map (name_of h) ns in
       let old_edges := map (edge_name_of h) es in
       let h1 := set_names set_node_name h (combine ns (map node_name (seq 0 (length ns)))) in
       let h2 := set_names set_edge_name h1 (combine es (map edge_name (seq 0 (length es)))) in
       rbind (save_all h2 ns es) (fun x =>
       let h3 := set_names set_node_name h2 (combine ns old_nodes) in
       let h4 := set_names set_edge_name h3 (combine (snd x) old_edges) in
       Ok (File (fst (fst x)) (snd (fst x)) old_nodes old_edges, h4))).

  (** the keys of a group, in the order in which the library lists them *)
  Variable keys : list string -> list string.
  (** network_components.py:452-466, 711-727, 922-941 [_load_node] *)
  Definition load_node (h : heap) (f : fnode) : res (heap * nat) :=
    match f_axes f with
    | None => Raise
    | Some axes =>
        match f_pay f with
        | inl t => new_node h (f_name f) axes (f_backend f) (PNode t)
        | inr d => match f_shape f with [] => Raise | x :: _ => new_node h (f_name f) axes (f_backend f) (PCopy (length (f_shape f)) x d) end
        end
    end.
  Fixpoint load_fnodes (h : heap) (d : list (string * fnode)) (ks : list string) : res (heap * list nat) :=
    match ks with
    | [] => Ok (h, [])
    | k :: r =>
        match lookup String.eqb d k with
        | None => Raise
        | Some f => rbind (load_node h f) (fun x => rbind (load_fnodes (fst x) d r) (fun y => Ok (fst y, snd x :: snd y)))
        end
    end.
  (** 1192-1217 [_load_edge] *)
  Definition find_end (ids : list (string * nat)) (x : string * nat) : res (nat * nat) :=
    match lookup String.eqb ids (fst x) with Some n => Ok (n, snd x) | None => Raise end.
  Definition load_edge (h : heap) (ids : list (string * nat)) (f : fedge) : res (heap * nat) :=
    rbind (find_end ids (fe_1 f)) (fun a =>
    rbind (match fe_2 f with Some x => rbind (find_end ids x) (fun b => Ok (Some b)) | None => Ok None end) (fun b =>
    let (h1, e) := new_edge h (Some a) b (fe_name f) in
    rbind (put_end (Some a) e false h1) (fun h2 =>
    rbind (put_end b e false h2) (fun h3 => Ok (h3, e))))).
  Fixpoint load_fedges (h : heap) (ids : list (string * nat)) (d : list (string * fedge)) (ks : list string) : res (heap * list nat) :=
    match ks with
    | [] => Ok (h, [])
    | k :: r =>
        match lookup String.eqb d k with
        | None => Raise
        | Some f => rbind (load_edge h ids f) (fun x => rbind (load_fedges (fst x) ids d r) (fun y => Ok (fst y, snd x :: snd y)))
        end
    end.
  (** utils.py:122-125: the old names; [KeyError] *)
  Fixpoint rename (look : heap -> nat -> option string) (put : heap -> nat -> string -> heap) (d : list (string * string)) (h : heap) (l : list nat) : res heap :=
    match l with
    | [] => Ok h
    | n :: r =>
        match look h n with
        | None => Raise
        | Some k => match lookup String.eqb d k with Some v => rename look put d (put h n v) r | None => Raise end
        end
    end.
  (** utils.py:90-127 [load_nodes]; the dictionary of names takes the last of equal ones *)
  Definition load_nodes (h : heap) (f : file) : res (heap * list nat) :=
    let node_names := combine (map node_name (seq 0 (length (fl_node_names f)))) (fl_node_names f) in
    let edge_names := combine (map edge_name (seq 0 (length (fl_edge_names f)))) (fl_edge_names f) in
    rbind (load_fnodes h (fl_nodes f) (keys (map fst (fl_nodes f)))) (fun x =>
    let ids := rev (map (fun n => (name_of (fst x) n, n)) (snd x)) in
    rbind (load_fedges (fst x) ids (fl_edges f) (keys (map fst (fl_edges f)))) (fun y =>
    rbind (rename (fun h e => option_map g_name (nth_error (he h) e)) set_edge_name edge_names (fst y) (snd y)) (fun h1 =>
    rbind (rename (fun h n => option_map o_name (nth_error (hn h) n)) set_node_name node_names h1 (snd x)) (fun h2 =>
    Ok (h2, snd x))))).
End Serial.
