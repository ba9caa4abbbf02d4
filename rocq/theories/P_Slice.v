(** * Property C22: slice_edge restricts the index range *)
From Coq Require Import ZArith.
From Verif Require Import Prelude Algebra Tensor TensorFacts Einsum EinsumFacts NetworkFacts Graph GraphBase GraphContract GraphOps GraphValue GraphOuter GraphConnect GraphProg GraphSched GraphQueryFacts GraphSlice GraphSliceFacts GraphExamples.
Set Implicit Arguments.
Unset Strict Implicit.

(** [start] and [len] select the k >= 1 indices from lo on; a negative start counts from the end.  A
    negative start selecting up to the end is excluded: the code then returns tensors of dimension
    zero (C22_negative_start_refuted in R_Graph.v). *)
Definition selects (d : nat) (start len : Z) (lo k : nat) : Prop :=
  len = Z.of_nat k /\ 0 < k /\ lo + k <= d /\ (start = Z.of_nat lo \/ (start = (Z.of_nat lo - Z.of_nat d)%Z /\ lo + k < d)).

(** Every edge of the graph, dangling, shared or trace, can be sliced.  [sliced] (GraphSliceFacts.v):
    the tensors carrying e are restricted, everything else is untouched.  The value of any set of
    nodes is the old value at the shifted index if e is open, and the sum over the selected values of
    e otherwise; [held s S e x a] is the value of the network with e held at x. *)
Theorem C22_slice_edge (R : csr) (s : @st R) m e start len lo k :
  wf s -> on s m e -> selects (edim s e) start len lo k ->
  exists s', slice_edge e start len s = (s', Some e) /\ sliced s s' e lo k /\ edim s' e = k /\
    forall S a, (forall n, In n S -> is_node s n) ->
      (count_occ Nat.eq_dec (net_labels (net_of s S)) e < 2 -> netval s' S a = netval s S (upd Nat.eq_dec a e (lo + a e))) /\
      (2 <= count_occ Nat.eq_dec (net_labels (net_of s S)) e -> netval s' S a = nsum k (fun i => held s S e (lo + i) a)).
Proof.
  intros W [j Hj] (-> & Hk & Hlo & Hs).
  assert (py_bound (edim s e) start = lo /\ py_len (edim s e) start (Z.of_nat k) = k) as [Hb Hl].
  { assert (py_bound (edim s e) start = lo) as Hb. { unfold py_bound. destruct (Z.ltb_spec start 0); lia. }
    split; [exact Hb|]. unfold py_len. rewrite Hb. unfold py_bound. destruct (Z.ltb_spec (start + Z.of_nat k) 0); lia. }
  destruct (@slice_ok R s e (m, j) start (Z.of_nat k) W Hj) as (s' & K & SL); [lia..|]. rewrite Hb, Hl in SL.
  exists s'. split; [exact K|]. split; [exact SL|]. split; [rewrite (sliced_edim W Hj SL), Nat.eqb_refl; reflexivity|].
  intros S a HS. split; intros Hc.
  - apply (slice_value_open _ W HS SL). intros Hi. apply nodup_In, filter_In in Hi. destruct Hi as [_ Hi]. apply Nat.leb_le in Hi. lia.
  - apply (slice_value_sum _ W HS SL). apply nodup_In, filter_In. split; [apply (count_occ_In Nat.eq_dec); lia|]. apply Nat.leb_le. exact Hc.
Qed.
Print Assumptions C22_slice_edge.
(** without slicing the sum runs over all values of e *)
Theorem C22_whole_range (R : csr) (s : @st R) S e a :
  2 <= count_occ Nat.eq_dec (net_labels (net_of s S)) e -> netval s S a = nsum (edim s e) (fun i => held s S e i a).
Proof.
  intros Hc. apply held_sum. apply nodup_In, filter_In. split; [apply (count_occ_In Nat.eq_dec); lia|]. apply Nat.leb_le. exact Hc.
Qed.
Print Assumptions C22_whole_range.
(** lengths below 1, slices past the end and slices around zero are rejected without any change *)
Theorem C22_slice_edge_rejects (R : csr) (s : @st R) m e start len :
  wf s -> on s m e -> (len <= 0 \/ start + len > Z.of_nat (edim s e) \/ - len < start < 0)%Z -> slice_edge e start len s = (s, None).
Proof.
  intros W [j Hj] H. destruct (wf_slot W Hj) as (ed & E1 & E2 & E3 & E4 & E5).
  unfold slice_edge, bind at 1, guard. destruct (Z.ltb_spec 0 len) as [Hl|Hl]; [|reflexivity]. unfold ret at 1. cbv beta iota.
  unfold bind at 1, edge_dim, bind at 1, get_edge at 1. rewrite E1, E2. unfold bind at 1, get_node at 1.
  assert (slot s (e_n1 ed, e_a1 ed) = Some e) as Hs1 by (apply E5; [auto|left; reflexivity]). destruct (slot_node Hs1) as (nd1 & Hn1 & _). rewrite Hn1.
  pose proof (edim_dimat W Hs1) as Hd1. unfold dimat in Hd1. cbn [fst snd] in Hd1. rewrite Hn1 in Hd1. rewrite Hd1. unfold ret at 1. cbv beta iota.
  replace (negb _) with false; [reflexivity|]. symmetry. apply negb_false_iff, orb_true_iff. rewrite andb_true_iff, !Z.ltb_lt. lia.
Qed.
Print Assumptions C22_slice_edge_rejects.

(** the shared edge 10 (dimension 3) from index 1 on, by a negative start 1 index of it, and the trace
    edge 11 *)
Example C22_example : wf ex_s /\ on (R := Z_csr) ex_s 1 10 /\ selects (edim (R := Z_csr) ex_s 10) 1 2 1 2 /\ selects (edim (R := Z_csr) ex_s 10) (-2) 1 1 1 /\
  on (R := Z_csr) ex_s 0 11 /\ selects (edim (R := Z_csr) ex_s 11) 0 1 0 1 /\
  option_map fst (entries (run (slice_edge 10 1 2) ex_s) 0) = Some [2; 2; 2; 2] /\ entries (run (slice_edge 10 (-2) 1) ex_s) 1 = Some ([1; 2; 2], [1; 2; 3; 4]%Z) /\
  option_map fst (entries (run (slice_edge 11 0 1) ex_s) 0) = Some [2; 3; 1; 1] /\
  netval (R := Z_csr) (run (slice_edge 10 1 2) ex_s) [0; 1; 2] (fun _ => 1) = Z.add (held (R := Z_csr) ex_s [0; 1; 2] 10 1 (fun _ => 1)) (held (R := Z_csr) ex_s [0; 1; 2] 10 2 (fun _ => 1)) /\
  netval (R := Z_csr) (run (slice_edge 10 1 2) ex_s) [0; 1; 2] (fun _ => 1) <> netval (R := Z_csr) ex_s [0; 1; 2] (fun _ => 1) /\
  snd (slice_edge 10 2 2 ex_s) = None /\ snd (slice_edge 10 (-1) 2 ex_s) = None.
Proof.
  split; [exact ex_wf|]. split; [exists 0; vm_compute; reflexivity|].
  assert (edim (R := Z_csr) ex_s 10 = 3) as -> by (vm_compute; reflexivity). assert (edim (R := Z_csr) ex_s 11 = 2) as -> by (vm_compute; reflexivity).
  split; [unfold selects; lia|]. split; [unfold selects; lia|]. split; [exists 2; vm_compute; reflexivity|]. split; [unfold selects; lia|].
  do 4 (split; [vm_compute; reflexivity|]). split; [vm_compute; discriminate|]. split; vm_compute; reflexivity.
Qed.
