(** * C67: products of labelled tensors and conjugates of Tensor objects *)
From Coq Require Import ZArith String.
From Verif Require Import Prelude Algebra Tensor Res Einsum Ncon NconSpec NconTop NconMain NconExamples Linalg LinalgSpec GraphCopy TensorExpr TensorExprSpec TensorExprFacts.
Set Implicit Arguments.
Unset Strict Implicit.
Open Scope list_scope.
Open Scope string_scope.
Open Scope nat_scope.

(** [finalize] gives the sum of products that the labels describe, over the backend of the factors *)
Theorem C67_value (R : cjr) (iter : list Z -> list Z) (iter_perm : forall l, Permutation (iter l) l)
    dim b (e : @expr R) o :
  (forall x, In x (leaves e) -> fst (fst x) = b) ->
  sized dim (arrays e) (labels e) -> ordinary (labels e) -> pairwise (labels e) ->
  (forall l, In l (concat (labels e)) -> label_ok l) -> out_spec (labels e) None o ->
  exists t, finalize iter (build e) = Ok (b, t) /\ is_value dim (arrays e) (labels e) o t.
Proof. exact (@finalize_value R iter iter_perm dim b e o). Qed.
Print Assumptions C67_value.

(** brackets and the order of the factors do not matter *)
Theorem C67_order (R : cjr) (iter : list Z -> list Z) (iter_perm : forall l, Permutation (iter l) l)
    dim b (e e' : @expr R) :
  Permutation (leaves e) (leaves e') -> (forall x, In x (leaves e) -> fst (fst x) = b) ->
  sized dim (arrays e) (labels e) -> ordinary (labels e) -> pairwise (labels e) ->
  (forall l, In l (concat (labels e)) -> label_ok l) ->
  exists t t', finalize iter (build e) = Ok (b, t) /\ finalize iter (build e') = Ok (b, t') /\ teq t t'.
Proof. exact (@finalize_order R iter iter_perm dim b e e'). Qed.
Print Assumptions C67_order.

Definition ex67 (i : nat) : @expr Z_cjr := @Call Z_cjr ("numpy", nth i ex1_ts (tz 0 [])) (nth i ex1_ns []).
Definition ex67_e := At (ex67 0) (At (At (ex67 1) (ex67 2)) (ex67 3)).
Definition ex67_e' := At (At (ex67 2) (ex67 3)) (At (ex67 0) (ex67 1)).
Definition show67 (r : res (@Tens Z_cjr)) := rbind r (fun x => rbind (show (Ok (snd x))) (fun y => Ok (fst x, y))).
Example C67_value_example :
  (forall x, In x (leaves ex67_e) -> fst (fst x) = "numpy") /\
  sized ex1_dim (arrays ex67_e) (labels ex67_e) /\ ordinary (labels ex67_e) /\ pairwise (labels ex67_e) /\
  (forall l, In l (concat (labels ex67_e)) -> label_ok l) /\ out_spec (labels ex67_e) None [I (-1); I (-2)] /\
  Permutation (leaves ex67_e) (leaves ex67_e') /\
  show67 (finalize rvz (build ex67_e)) = Ok ("numpy", ([2; 2], [5000; 6500; 7500; 9750]%Z)) /\
  show67 (finalize rvz (build ex67_e')) = Ok ("numpy", ([2; 2], [5000; 6500; 7500; 9750]%Z)).
Proof.
  split. { intros x Hx. cbn in Hx. repeat (destruct Hx as [<- | Hx]; [reflexivity|]). contradiction. }
  split; [exact ex1_sized|]. split; [exact (standard_ordinary ex1_standard)|]. split; [exact (standard_pairwise ex1_standard)|].
  split; [exact ex1_labels|]. split; [exact ex1_out|].
  split; [apply (Permutation_app_comm (leaves (At (ex67 0) (ex67 1))))|]. split; vm_compute; reflexivity.
Qed.

(** factors of different backends are refused *)
Theorem C67_mixed (R : cjr) (iter : list Z -> list Z) (e : @expr R) x y :
  In x (leaves e) -> In y (leaves e) -> fst (fst x) <> fst (fst y) -> finalize iter (build e) = Raise.
Proof. exact (@finalize_mixed R iter e x y). Qed.
Print Assumptions C67_mixed.

Example C67_mixed_example :
  finalize rvz (build (At (At (ex67 2) (ex67 3)) (@Call Z_cjr ("jax", tz 1 [2]) [I (-2)]))) = Raise /\
  show67 (finalize rvz (build (At (At (ex67 2) (ex67 3)) (@Call Z_cjr ("numpy", tz 1 [2]) [I (-2)])))) =
    Ok ("numpy", ([2; 2], [10; 20; 15; 30]%Z)).
Proof. split; vm_compute; reflexivity. Qed.

(** [H] and [hconj()] conjugate and reverse the axes *)
Theorem C67_adjoint (R : cjr) (a : @Tens R) : exists x, t_H a = Ok (fst a, x) /\ t_hconj a None = Ok (fst a, x) /\
  shape x = rev (shape (snd a)) /\ forall ix, valid ix (shape (snd a)) -> elt x (rev ix) = cj (elt (snd a) ix).
Proof. exact (H_ok a). Qed.
Print Assumptions C67_adjoint.

Theorem C67_involution (R : cjr) (a : @Tens R) :
  exists x y, t_H a = Ok x /\ t_H x = Ok y /\ fst y = fst a /\ teq (snd y) (snd a).
Proof. exact (H_involutive a). Qed.
Print Assumptions C67_involution.

(** [hconj(perm)] conjugates and permutes the axes; it accepts every permutation *)
Theorem C67_hconj (R : cjr) (a : @Tens R) z u : t_hconj a (Some z) = Ok u -> fst u = fst a /\
  exists p, is_perm (rank (snd a)) p /\
    Forall2 (fun i j => i = Z.of_nat j \/ i = (Z.of_nat j - Z.of_nat (rank (snd a)))%Z) z p /\
    shape (snd u) = map (fun i => nth i (shape (snd a)) 0) p /\
    forall ix, valid ix (shape (snd a)) -> elt (snd u) (map (fun i => nth i ix 0) p) = cj (elt (snd a) ix).
Proof. exact (@hconj_ok R a z u). Qed.
Print Assumptions C67_hconj.

Theorem C67_hconj_total (R : cjr) (a : @Tens R) p : is_perm (rank (snd a)) p ->
  exists x, t_hconj a (Some (map Z.of_nat p)) = Ok (fst a, x).
Proof. exact (@hconj_total R a p). Qed.
Print Assumptions C67_hconj_total.

Definition ex67_a : @Tens G_cjr := ("numpy", @Tensor G_cjr [2; 3] (fun ix => (Z.of_nat (ravel [2; 3] ix), 1%Z))).
Definition show67c (r : res (@Tens G_cjr)) := rbind r (fun x => Ok (fst x, shape (snd x), map (elt (snd x)) (idxs (shape (snd x))))).
Example C67_adjoint_example :
  show67c (t_H ex67_a) = Ok ("numpy", [3; 2], [(0, -1); (3, -1); (1, -1); (4, -1); (2, -1); (5, -1)]%Z) /\
  show67c (t_hconj ex67_a (Some [-1; 0]%Z)) = show67c (t_H ex67_a) /\ is_perm (rank (snd ex67_a)) [1; 0] /\
  show67c (t_hconj ex67_a (Some [0; 1]%Z)) = Ok ("numpy", [2; 3], [(0, -1); (1, -1); (2, -1); (3, -1); (4, -1); (5, -1)]%Z) /\
  t_hconj ex67_a (Some [0; 0]%Z) = Raise.
Proof.
  split; [vm_compute; reflexivity|]. split; [vm_compute; reflexivity|]. split; [apply perm_swap|].
  split; vm_compute; reflexivity.
Qed.
