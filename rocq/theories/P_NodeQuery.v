(** * C75: queries of a node by axis *)
From Coq Require Import String ZArith Permutation.
From Verif Require Import Prelude Res NodeQuery.
Set Implicit Arguments.
Unset Strict Implicit.
Open Scope nat_scope.

Lemma py_index_spec s l : match py_index s l with
  | Ok z => exists k, z = Z.of_nat k /\ nth_error l k = Some s /\ forall j, j < k -> nth_error l j <> Some s
  | _ => ~ In s l end.
Proof.
  induction l as [|x r IH]; cbn; [intros []|]. destruct (String.eqb_spec x s) as [->|N].
  - exists 0. repeat split. intros j Hj. lia.
  - destruct (py_index s r) as [z| |]; cbn [rbind].
    + destruct IH as (k & -> & H1 & H2). exists (S k). split; [lia|]. split; [exact H1|]. intros [|j] Hj; cbn; [congruence | apply H2; lia].
    + intros [H|H]; [congruence | exact (IH H)].
    + intros [H|H]; [congruence | exact (IH H)].
Qed.
Lemma py_get_nat l k : py_get l (Z.of_nat k) = if k <? List.length l then Ok (nth k l 0) else Raise.
Proof.
  unfold py_get. destruct (Z.ltb_spec (Z.of_nat k) 0); [lia|]. rewrite Nat2Z.id. destruct (Nat.ltb_spec k (List.length l)).
  - destruct (Z.leb_spec 0 (Z.of_nat k)), (Z.ltb_spec (Z.of_nat k) (Z.of_nat (List.length l))); cbn; try lia. reflexivity.
  - destruct (Z.leb_spec 0 (Z.of_nat k)), (Z.ltb_spec (Z.of_nat k) (Z.of_nat (List.length l))); cbn; try lia; reflexivity.
Qed.

(** an axis by its number, or by its name where the first axis of this name is meant *)
Definition is_axis (q : qnode) (a : axis) (k : nat) : Prop :=
  match a with
  | Num z => z = Z.of_nat k
  | Name s => nth_error (q_names q) k = Some s /\ forall j, j < k -> nth_error (q_names q) j <> Some s
  end.

(** the dimension is that of the axis; numbers outside and unknown names raise *)
Theorem C75_dimension q a d : get_dimension q a = Ok d <-> exists k, is_axis q a k /\ nth_error (q_shape q) k = Some d.
Proof.
  assert (forall k, (if ((Z.of_nat k <? 0) || (Z.of_nat (List.length (q_shape q)) <=? Z.of_nat k))%Z then Raise else py_get (q_shape q) (Z.of_nat k)) = Ok d <->
    nth_error (q_shape q) k = Some d) as K.
  { intros k. rewrite py_get_nat. destruct (Z.ltb_spec (Z.of_nat k) 0); [lia|]. cbn [orb].
    destruct (Z.leb_spec (Z.of_nat (List.length (q_shape q))) (Z.of_nat k)), (Nat.ltb_spec k (List.length (q_shape q))); try lia.
    - split; [discriminate|]. intros H'. assert (nth_error (q_shape q) k = None) by (apply nth_error_None; lia). congruence.
    - rewrite (nth_error_nth' _ 0) by assumption. split; intros H'; injection H' as ->; reflexivity. }
  unfold get_dimension. destruct a as [z|s]; cbn [get_axis_number rbind is_axis].
  - destruct (Z.ltb_spec z 0) as [L|L].
    + cbn [orb]. split; [discriminate|]. intros (k & -> & _). lia.
    + rewrite <- (Z2Nat.id z) by exact L. pose proof (K (Z.to_nat z)) as K'. destruct (Z.ltb_spec (Z.of_nat (Z.to_nat z)) 0); [lia|]. cbn [orb] in K' |- *. rewrite K'. split.
      * intros H'. exists (Z.to_nat z). auto.
      * intros (k & E & H'). apply Nat2Z.inj in E as <-. exact H'.
  - pose proof (py_index_spec s (q_names q)) as P. destruct (py_index s (q_names q)) as [z| |]; cbn [rbind].
    + destruct P as (k & -> & H1 & H2). rewrite K. split; [intros H'; exists k; auto|]. intros (k' & [H1' H2'] & H').
      destruct (Nat.lt_trichotomy k k') as [L|[<-|L]]; [destruct (H2' k L H1) | exact H' | destruct (H2 k' L H1')].
    + split; [discriminate|]. intros (k & [H' _] & _). destruct P. eapply nth_error_In, H'.
    + split; [discriminate|]. intros (k & [H' _] & _). destruct P. eapply nth_error_In, H'.
Qed.
Print Assumptions C75_dimension.

(** the two kinds of edges, the dangling ones in the order of the axes; the flags tell whether there are any *)
Theorem C75_edges dangling q :
  (forall e, In e (get_all_dangling dangling q) <-> In e (q_edges q) /\ dangling e = true) /\
  (forall e, In e (get_all_nondangling dangling q) <-> In e (q_edges q) /\ dangling e = false) /\
  NoDup (get_all_nondangling dangling q) /\
  (has_dangling dangling (q_edges q) = true <-> exists e, In e (q_edges q) /\ dangling e = true) /\
  (has_nondangling dangling (q_edges q) = true <-> exists e, In e (q_edges q) /\ dangling e = false).
Proof.
  split; [intros e; apply filter_In|]. split.
  { intros e. unfold get_all_nondangling. rewrite nodup_In, filter_In, negb_true_iff. reflexivity. }
  split; [apply NoDup_nodup|]. split.
  - induction (q_edges q) as [|e r IH]; cbn; [split; [discriminate | intros (e & [] & _)]|]. destruct (dangling e) eqn:E.
    + split; [intros _; exists e; auto | reflexivity].
    + rewrite IH. split; [intros (x & H & Hx); exists x; auto | intros (x & [<- | H] & Hx); [congruence | exists x; auto]].
  - induction (q_edges q) as [|e r IH]; cbn; [split; [discriminate | intros (e & [] & _)]|]. destruct (dangling e) eqn:E; cbn [negb].
    + rewrite IH. split; [intros (x & H & Hx); exists x; auto | intros (x & [<- | H] & Hx); [congruence | exists x; auto]].
    + split; [intros _; exists e; auto | reflexivity].
Qed.
Print Assumptions C75_edges.

Example C75_ex : let q := QNode ["a"; "b"; "a"]%string [2; 3; 4] [7; 8; 9] in
  get_dimension q (Name "a") = Ok 2 /\ get_dimension q (Num 2) = Ok 4 /\ get_dimension q (Num 3) = Raise /\ get_dimension q (Name "c") = Raise /\
  is_axis q (Name "b") 1 /\ get_all_dangling Nat.even q = [8] /\ get_all_nondangling Nat.even q = [7; 9].
Proof. cbv zeta. do 4 (split; [reflexivity|]). split; [split; [reflexivity|]; intros [|j] Hj; [discriminate | lia]|]. split; reflexivity. Qed.
