(** * ContextSpec: lexical scoping, with no stack and no mutable current item.
    [lex b c p db ws]: run [p] inside the backend block [b] (None: outside all of them) and the collection block [c], with
    global default [db] and the backends [ws] of the nodes made so far; result: the new global default, the events, and
    whether it ended normally *)
From Verif Require Import Prelude Context.
From Coq Require Import String.
Set Implicit Arguments.
Unset Strict Implicit.

(** [Made w c]: a node was made with the backend [w] (a registered name, or an instance) and belongs to collection [c];
    [Saw b c]: the current default and collection were asked for *)
Inductive ev := Made (w : barg) (c : option nat) | Saw (b : barg) (c : option nat).
Definition whos (es : list ev) : list barg := flat_map (fun e => match e with Made w _ => [w] | Saw _ _ => [] end) es.
Definition saws (es : list ev) : list (barg * option nat) :=
  flat_map (fun e => match e with Made _ _ => [] | Saw b c => [(b, c)] end) es.
(** the numbers of the nodes made for collection [x], the first of them being number [n] *)
Fixpoint in_coll (x n : nat) (es : list ev) : list nat :=
  match es with
  | [] => []
  | Made _ (Some c) :: r => if Nat.eqb c x then n :: in_coll x (S n) r else in_coll x (S n) r
  | Made _ None :: r => in_coll x (S n) r
  | Saw _ _ :: r => in_coll x n r
  end.

(** the collection each node belongs to, in order of creation *)
Definition made_in (es : list ev) : list (option nat) :=
  flat_map (fun e => match e with Made _ c => [c] | Saw _ _ => [] end) es.

Definition usable (b : barg) : bool := match b with Txt s => known s | Obj _ => true | Other => false end.
Definition cur (b : option barg) (db : barg) : barg := match b with Some x => x | None => db end.
Definition make (w : barg) (bad : bool) (c : option nat) (db : barg) : barg * list ev * bool :=
  if usable w && negb bad then (db, [Made w c], true) else (db, [], false).

Fixpoint lex (b : option barg) (c : option nat) (p : stmt) (db : barg) (ws : list barg) : barg * list ev * bool :=
  match p with
  | Skip => (db, [], true)
  | Seq p q =>
      let '(db1, e1, ok) := lex b c p db ws in
      if ok then let '(db2, e2, ok2) := lex b c q db1 (ws ++ whos e1) in (db2, e1 ++ e2, ok2) else (db1, e1, false)
  | Throw => (db, [], false)
  | Try p q =>
      let '(db1, e1, ok) := lex b c p db ws in
      if ok then (db1, e1, true) else let '(db2, e2, ok2) := lex b c q db1 (ws ++ whos e1) in (db2, e1 ++ e2, ok2)
  | Query => (db, [Saw (cur b db) c], true)
  | SetDefault x =>
      match b with
      | Some _ => (db, [], false)
      | None => if usable x then (x, [], true) else (db, [], false)
      end
  | Create src bk bad =>
      let w := match src with
               | Some n => match nth_error ws n with Some w => w | None => cur bk (cur b db) end
               | None => cur bk (cur b db)
               end in
      make w bad c db
  | InitNode bk bad =>
      match bk with
      | Some w => make w bad c db
      | None => match cur b db with Obj o => make (Obj o) bad c db | _ => (db, [], false) end
      end
  | InitTensor bk bad => (db, [], usable (cur bk (cur b db)) && negb bad)
  | InBackend x p => match x with Other => (db, [], false) | _ => lex (Some x) c p db ws end
  | InColl x p => match x with None => (db, [], false) | Some x => lex b (Some x) p db ws end
  end.

(** the objects that names stand for *)
Definition stands_for (inst : list (string * nat)) (o : nat) (w : barg) : Prop :=
  match w with Obj o' => o = o' | Txt s => known s = true /\ lookup s inst = Some o | Other => False end.
