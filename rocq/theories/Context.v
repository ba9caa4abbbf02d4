(** * Context: model of backend_contextmanager.py, ops.py, backends/backend_factory.py, NodeCollection
    (network_components.py:2189-2235), the parts of the Node constructors that read those, and
    linalg/node_linalg.py:initialize_node.
    A run of python code is a [stmt]; an exception is the outcome [false]. *)
From Verif Require Import Prelude.
From Coq Require Import String.
Set Implicit Arguments.
Unset Strict Implicit.

(** what can be passed as a backend: Text, an AbstractBackend instance (by identity), or anything else *)
Inductive barg := Txt (s : string) | Obj (o : nat) | Other.

(** backend_factory._BACKENDS (backend_factory.py:22-28): the names *)
Definition backends : list string :=
  ["tensorflow"; "numpy"; "jax"; "pytorch"; "symmetric"]%string.
Definition known (s : string) : bool := existsb (String.eqb s) backends.

(** the module-level state:
    - _default_backend_stack.stack (each entry: the .backend of a DefaultBackend), .default_backend;
    - ops._default_collection_stack.stack (each entry: the container of a NodeCollection, by identity);
    - the containers; backend_factory._INSTANTIATED_BACKENDS; the next fresh object identity;
    - the nodes made so far, in order, with the backend object each one has;
    - a log of what get_default_backend / get_current_collection returned when called *)
Record ctx := Ctx {
  k_bs : list barg;
  k_db : barg;
  k_cs : list nat;
  k_cont : nat -> list nat;
  k_inst : list (string * nat);
  k_next : nat;
  k_nodes : list nat;
  k_log : list (barg * option nat)
}.

(** _DefaultBackendStack.get_current_backend, get_default_backend (backend_contextmanager.py:29-37) *)
Definition get_default_backend (k : ctx) : barg :=
  match k_bs k with b :: _ => b | [] => k_db k end.
(** ops.get_current_collection (ops.py:22-30) *)
Definition get_current_collection (k : ctx) : option nat := hd_error (k_cs k).

Definition push_b (b : barg) (k : ctx) := Ctx (b :: k_bs k) (k_db k) (k_cs k) (k_cont k) (k_inst k) (k_next k) (k_nodes k) (k_log k).
Definition pop_b (k : ctx) := Ctx (tl (k_bs k)) (k_db k) (k_cs k) (k_cont k) (k_inst k) (k_next k) (k_nodes k) (k_log k).
Definition push_c (c : nat) (k : ctx) := Ctx (k_bs k) (k_db k) (c :: k_cs k) (k_cont k) (k_inst k) (k_next k) (k_nodes k) (k_log k).
Definition pop_c (k : ctx) := Ctx (k_bs k) (k_db k) (tl (k_cs k)) (k_cont k) (k_inst k) (k_next k) (k_nodes k) (k_log k).
Definition set_db (b : barg) (k : ctx) := Ctx (k_bs k) b (k_cs k) (k_cont k) (k_inst k) (k_next k) (k_nodes k) (k_log k).

(** set_default_backend (backend_contextmanager.py:40-49) *)
Definition set_default_backend (b : barg) (k : ctx) : ctx * bool :=
  match k_bs k with
  | _ :: _ => (k, false)                       (* AssertionError *)
  | [] =>
      match b with
      | Other => (k, false)                    (* ValueError *)
      | Txt s => if known s then (set_db b k, true) else (k, false)
      | Obj _ => (set_db b k, true)
      end
  end.

(** backend_factory.get_backend (backend_factory.py:34-46): the object, made at the first use of a name *)
Fixpoint lookup (s : string) (l : list (string * nat)) : option nat :=
  match l with [] => None | (x, o) :: r => if String.eqb s x then Some o else lookup s r end.
Definition get_backend (b : barg) (k : ctx) : ctx * option nat :=
  match b with
  | Obj o => (k, Some o)
  | Other => (k, None)
  | Txt s =>
      if known s then
        match lookup s (k_inst k) with
        | Some o => (k, Some o)
        | None =>
            (Ctx (k_bs k) (k_db k) (k_cs k) (k_cont k) ((s, k_next k) :: k_inst k) (S (k_next k)) (k_nodes k) (k_log k),
             Some (k_next k))
        end
      else (k, None)
  end.

(** AbstractNode.__init__ (network_components.py:72-104): the new node is known by its number; at its end it is added
    to the current collection (NodeCollection.add, 2225-2229; a fresh node is in no set, so list and set agree) *)
Definition add_to (c n : nat) (k : ctx) :=
  Ctx (k_bs k) (k_db k) (k_cs k) (fun x => if Nat.eqb x c then k_cont k x ++ [n] else k_cont k x)
      (k_inst k) (k_next k) (k_nodes k) (k_log k).
Definition finish_node (o : nat) (k : ctx) : ctx :=
  let n := List.length (k_nodes k) in
  let k1 := Ctx (k_bs k) (k_db k) (k_cs k) (k_cont k) (k_inst k) (k_next k) (k_nodes k ++ [o]) (k_log k) in
  match get_current_collection k with Some c => add_to c n k1 | None => k1 end.

(** Node.__init__ (572-588) and CopyNode.__init__ (761-776). [src]: the node passed as tensor, if one is (its backend
    wins); [bk]: the backend argument; [bad]: convert_to_tensor or the base constructor raises (wrong names, ...) *)
Definition create (src : option nat) (bk : option barg) (bad : bool) (k : ctx) : ctx * bool :=
  let bk := match src with
            | Some n => match nth_error (k_nodes k) n with Some o => Some (Obj o) | None => bk end
            | None => bk
            end in
  let b := match bk with Some b => b | None => get_default_backend k end in
  let '(k1, o) := get_backend b k in
  match o with
  | None => (k1, false)
  | Some o => if bad then (k1, false) else (finish_node o k1, true)
  end.

(** node_linalg.initialize_node (node_linalg.py:57-64): without a backend argument the method is looked up on what
    get_default_backend returned, and Text has no such method *)
Definition initialize_node (bk : option barg) (bad : bool) (k : ctx) : ctx * bool :=
  match bk with
  | None =>
      match get_default_backend k with
      | Obj _ => if bad then (k, false) else create None None false k
      | _ => (k, false)                        (* AttributeError *)
      end
  | Some b =>
      let '(k1, o) := get_backend b k in
      match o with
      | None => (k1, false)
      | Some _ => if bad then (k1, false) else create None (Some b) false k1
      end
  end.
(** linalg/initialization.py:initialize_tensor (47-53) makes a Tensor, not a Node: only the backend is resolved;
    Tensor.__init__ (tensor.py:29-32) resolves it again *)
Definition initialize_tensor (bk : option barg) (bad : bool) (k : ctx) : ctx * bool :=
  let b := match bk with Some b => b | None => get_default_backend k end in
  let '(k1, o) := get_backend b k in
  match o with
  | None => (k1, false)
  | Some _ => if bad then (k1, false) else let '(k2, o2) := get_backend b k1 in (k2, match o2 with Some _ => true | None => false end)
  end.

(** statements. [InBackend b p]: with DefaultBackend(b): p.  [InColl (Some c) p]: with NodeCollection(c): p, and
    [InColl None p] passes something that is neither list nor set.  Loops and conditionals are unrolled: a [stmt] is one
    terminating run *)
Inductive stmt :=
| Skip
| Seq (p q : stmt)
| Throw
| Try (p q : stmt)
| Query
| SetDefault (b : barg)
| Create (src : option nat) (bk : option barg) (bad : bool)
| InitNode (bk : option barg) (bad : bool)
| InitTensor (bk : option barg) (bad : bool)
| InBackend (b : barg) (p : stmt)
| InColl (c : option nat) (p : stmt).

(** DefaultBackend (backend_contextmanager.py:6-19) and NodeCollection (network_components.py:2210-2235) under python's
    with statement: __init__, __enter__, the body, __exit__ in every case; __exit__ returns None, so an exception goes on *)
Fixpoint exec (p : stmt) (k : ctx) : ctx * bool :=
  match p with
  | Skip => (k, true)
  | Seq p q => let '(k1, ok) := exec p k in if ok then exec q k1 else (k1, false)
  | Throw => (k, false)
  | Try p q => let '(k1, ok) := exec p k in if ok then (k1, true) else exec q k1
  | Query =>
      (Ctx (k_bs k) (k_db k) (k_cs k) (k_cont k) (k_inst k) (k_next k) (k_nodes k)
           (k_log k ++ [(get_default_backend k, get_current_collection k)]), true)
  | SetDefault b => set_default_backend b k
  | Create src bk bad => create src bk bad k
  | InitNode bk bad => initialize_node bk bad k
  | InitTensor bk bad => initialize_tensor bk bad k
  | InBackend b p =>
      match b with
      | Other => (k, false)                    (* ValueError *)
      | _ => let '(k1, ok) := exec p (push_b b k) in (pop_b k1, ok)
      end
  | InColl c p =>
      match c with
      | None => (k, false)                     (* ValueError *)
      | Some c => let '(k1, ok) := exec p (push_c c k) in (pop_c k1, ok)
      end
  end.

(** the state when the modules are loaded; [n] object identities are already taken by instances the user made *)
Definition start (n : nat) : ctx := Ctx [] (Txt "numpy") [] (fun _ => []) [] n [] [].
