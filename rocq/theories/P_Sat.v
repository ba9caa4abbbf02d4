(** * P_Sat: the networks of examples/sat count satisfying assignments *)
From Coq Require Import Permutation List Lia ZArith Bool.
From Verif Require Import Prelude Algebra Tensor Graph GraphBase GraphJoin GraphLaws GraphContract GraphDensity GraphValue GraphQuery GraphQueryFacts GraphCopyFacts QuantumSpec Quantum QuantumFacts Stitch Sat SatSpec SatFacts SatMain SatCount.
Import ListNotations.

Section P.
  Context {R : cjr}.
  Variable iter : list nat -> list nat.
  Hypothesis iter_perm : forall l, Permutation (iter l) l.

  (** [sat_tn]: from any heap, for clauses without 0 whose largest variable is n, new nodes [ns] are made whose open edges are
      exactly the n returned edges; the value of the network is 1 at the satisfying assignments and 0 at the others.  If all
      variables are linked by clauses then [reachable(var_edges[0].node1)] gives exactly the new nodes. *)
  Theorem C60_sat (s : @st R) cs n : wf s -> (forall x y z, In (x, y, z) cs -> x <> 0%Z /\ y <> 0%Z /\ z <> 0%Z) -> largest cs n ->
    exists s' ns vars, sat_tn cs s = (s', Some vars) /\ wf s' /\ length vars = n /\ NoDup vars /\ NoDup ns /\
      (forall m, In m ns -> is_node s' m /\ ~ is_node s m) /\ (forall m, is_node s m -> is_node s' m) /\ (forall p, is_node s (fst p) -> slot s' p = slot s p) /\
      (forall x, In x vars -> edim s' x = 2) /\ (forall x, In x vars <-> loose s' ns x) /\
      (forall a, (forall x, In x vars -> a x < 2) -> netval s' ns a = if satisfies cs (map a vars) then r1 else r0) /\
      ((forall v, 1 <= v <= n -> linked cs 1 v) -> exists d l, s_edges s' (nth 0 vars 0) = Some d /\ reachable iter [e_n1 d] s' = (s', Some l) /\ Permutation l ns).
  Proof. exact (@sat_full R iter iter_perm s cs n). Qed.

  (** [sat_count_tn]: the value of the new nodes is the number of satisfying assignments; if all variables are linked by clauses
      then exactly the new nodes are returned. *)
  Theorem C60_count (s : @st R) cs n : wf s -> (forall x y z, In (x, y, z) cs -> x <> 0%Z /\ y <> 0%Z /\ z <> 0%Z) -> largest cs n -> (forall v, 1 <= v <= n -> linked cs 1 v) ->
    exists s' l, sat_count_tn iter cs s = (s', Some l) /\ wf s' /\ NoDup l /\ (forall m, In m l -> is_node s' m /\ ~ is_node s m) /\
      (forall p, is_node s (fst p) -> slot s' p = slot s p) /\ forall a, netval s' l a = times1 R (solutions n cs).
  Proof. exact (@count_full R iter iter_perm s cs n). Qed.

  (** a 0 in a clause, or no clause at all, raises *)
  Theorem C60_rejects (s : @st R) cs : (exists x y z, In (x, y, z) cs /\ (x = 0 \/ y = 0 \/ z = 0)%Z) \/ cs = [] ->
    snd (sat_tn cs s) = None /\ snd (sat_count_tn iter cs s) = None.
  Proof. exact (@sat_rejects R iter s cs). Qed.
End P.
Print Assumptions C60_sat.
Print Assumptions C60_count.
Print Assumptions C60_rejects.

Definition problem : list (Z * Z * Z) := [(1, 2, -3); (-1, 3, 4)]%Z.
Example C60_sat_ex : (forall x y z, In (x, y, z) problem -> x <> 0%Z /\ y <> 0%Z /\ z <> 0%Z) /\ largest problem 4 /\ (forall v, 1 <= v <= 4 -> linked problem 1 v) /\
  solutions 4 problem = 12 /\ satisfies problem [1; 0; 0; 1] = true /\ satisfies problem [0; 0; 1; 1] = false.
Proof.
  split; [|split; [|split]].
  - intros x y z [H|[H|[]]]; injection H as <- <- <-; lia.
  - split; [exists (-1, 3, 4)%Z; split; [right; left; reflexivity|right; right; reflexivity]|].
    intros c v [<-|[<-|[]]] [<-|[<-|<-]]; cbn; lia.
  - intros v Hv. assert (linked problem 1 3) as L3 by (apply (@linked_step _ _ (1, 2, -3)%Z 1 3 (linked_refl _ _)); cbn; auto).
    destruct v as [|[|[|[|[|]]]]]; try lia.
    + apply linked_refl.
    + apply (@linked_step _ _ (1, 2, -3)%Z 1 2 (linked_refl _ _)); cbn; auto.
    + exact L3.
    + apply (@linked_step _ _ (-1, 3, 4)%Z 3 4 L3); cbn; auto.
  - vm_compute. auto.
Qed.
(** the problem of examples/sat/sat_test.py:6-11, run *)
Example C60_count_ex : let r := sat_count_tn (R := Z_cjr) (fun l => l) [(1, 1, 1)]%Z empty_st in
  match snd r with Some l => length l = 10 /\ netval (fst r) l (fun _ => 0) = 1%Z | None => False end.
Proof. vm_compute. auto. Qed.
