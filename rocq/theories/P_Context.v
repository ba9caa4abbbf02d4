(** * P_Context: C42, default-backend and node-collection contexts *)
From Verif Require Import Prelude Context ContextSpec ContextFacts.
From Coq Require Import String.
Set Implicit Arguments.
Unset Strict Implicit.

(** any run, ending normally or by an exception, leaves both stacks as it found them *)
Theorem C42_balanced p k k' ok : exec p k = (k', ok) -> k_bs k' = k_bs k /\ k_cs k' = k_cs k.
Proof. apply exec_stacks. Qed.
Print Assumptions C42_balanced.

(** leaving a backend block restores the default backend, the global default and the current collection *)
Theorem C42_backend_block b p k k' ok : exec (InBackend b p) k = (k', ok) ->
  get_default_backend k' = get_default_backend k /\ k_db k' = k_db k /\ get_current_collection k' = get_current_collection k.
Proof. apply backend_block. Qed.
Print Assumptions C42_backend_block.

(** leaving a collection block restores the current collection, and (inside a backend block, where the global default
    cannot be changed) the default backend *)
Theorem C42_collection_block c p k k' ok : exec (InColl c p) k = (k', ok) ->
  get_current_collection k' = get_current_collection k /\ (k_bs k <> [] -> get_default_backend k' = get_default_backend k).
Proof. apply coll_block. Qed.
Print Assumptions C42_collection_block.

(** set_default_backend is refused inside a block and changes nothing *)
Theorem C42_set_refused b k : k_bs k <> [] -> exec (SetDefault b) k = (k, false).
Proof. simpl. unfold set_default_backend. destruct (k_bs k); [congruence | reflexivity]. Qed.
Print Assumptions C42_set_refused.

(** the whole run is the one lexical scoping gives: outcome, default, every answer of get_default_backend and
    get_current_collection, the contents of every container, and the backend object of every node *)
Theorem C42_lexical p n k' ok db es ok' : exec p (start n) = (k', ok) -> lex None None p (Txt "numpy") [] = (db, es, ok') ->
  ok = ok' /\ k_db k' = db /\ k_bs k' = [] /\ k_cs k' = [] /\ k_log k' = saws es /\
  (forall x, k_cont k' x = in_coll x 0 es) /\ Forall2 (stands_for (k_inst k')) (k_nodes k') (whos es).
Proof.
  intros E L. destruct (@exec_follows p (start n) [] k' ok db es ok' (Forall2_nil _) E L) as [A []].
  repeat split; assumption.
Qed.
Print Assumptions C42_lexical.

(** from any state in mid-run *)
Theorem C42_lexical_from p k ws k' ok db es ok' : Forall2 (stands_for (k_inst k)) (k_nodes k) ws ->
  exec p k = (k', ok) -> lex (hd_error (k_bs k)) (hd_error (k_cs k)) p (k_db k) ws = (db, es, ok') ->
  ok = ok' /\ k_db k' = db /\ k_bs k' = k_bs k /\ k_cs k' = k_cs k /\ k_log k' = k_log k ++ saws es /\
  (forall x, k_cont k' x = k_cont k x ++ in_coll x (List.length (k_nodes k)) es) /\
  Forall2 (stands_for (k_inst k')) (k_nodes k') (ws ++ whos es).
Proof. intros H E L. destruct (exec_follows H E L) as [A []]. repeat split; assumption. Qed.
Print Assumptions C42_lexical_from.

(** node number [i], made inside the collection block [c], is once in that container and in no other *)
Theorem C42_innermost p n k' ok db es ok' i c : exec p (start n) = (k', ok) -> lex None None p (Txt "numpy") [] = (db, es, ok') ->
  nth_error (made_in es) i = Some c -> forall x,
  count_occ Nat.eq_dec (k_cont k' x) i = match c with Some y => if Nat.eqb y x then 1 else 0 | None => 0 end.
Proof.
  intros E L H x. destruct (C42_lexical E L) as (_ & _ & _ & _ & _ & C & _). rewrite C.
  exact (in_coll_count x 0 H).
Qed.
Print Assumptions C42_innermost.

(** nested blocks of both kinds, an exception escaping two of them, a refused set_default_backend, and a handler *)
Definition ex_run : stmt :=
  Seq (SetDefault (Txt "jax"))
  (Seq (Create None None false)
  (Seq (InColl (Some 7)
    (Seq (Create None None false)
    (Try (InBackend (Txt "pytorch")
           (InColl (Some 8)
             (Seq (Create None None false)
             (Seq Query
             (Seq (SetDefault (Txt "numpy")) (Create None None false))))))
         (Seq Query (Create (Some 2) None false)))))
  Query)).
Example C42_ex :
  lex None None ex_run (Txt "numpy") [] =
    (Txt "jax", [Made (Txt "jax") None; Made (Txt "jax") (Some 7); Made (Txt "pytorch") (Some 8); Saw (Txt "pytorch") (Some 8);
                 Saw (Txt "jax") (Some 7); Made (Txt "pytorch") (Some 7); Saw (Txt "jax") None], true) /\
  k_nodes (fst (exec ex_run (start 3))) = [3; 3; 4; 4] /\
  k_cont (fst (exec ex_run (start 3))) 7 = [1; 3] /\ k_cont (fst (exec ex_run (start 3))) 8 = [2] /\
  nth_error (made_in (snd (fst (lex None None ex_run (Txt "numpy") [])))) 2 = Some (Some 8).
Proof. repeat split; vm_compute; reflexivity. Qed.
Example C42_ex_from : exists k : ctx, k_bs k <> [] /\ k_cs k <> [] /\
  Forall2 (stands_for (k_inst k)) (k_nodes k) [Txt "jax"; Obj 1].
Proof.
  exists (Ctx [Txt "jax"] (Txt "numpy") [5] (fun _ => []) [("jax"%string, 4)] 5 [4; 1] []).
  split; [discriminate|]. split; [discriminate|]. repeat constructor.
Qed.
