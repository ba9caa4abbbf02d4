(** * BstSpec: what a block-sparse tensor means.

    A block-sparse tensor stores the entries its symmetry allows, row major in the order of its
    elementary legs; a leg of the tensor is a group of elementary legs. *)
From Verif Require Import Prelude Algebra Tensor Res Charge ChargeFacts BlockSparse BlockSpec.
Set Implicit Arguments.
Unset Strict Implicit.

(** splitting grouped indices into elementary ones, [gs] the dimensions of each group *)
Fixpoint split_index (gs : list (list nat)) (I : list nat) : list nat :=
  match gs, I with
  | g :: gs', i :: I' => unravel g i ++ split_index gs' I'
  | _, _ => []
  end.

Section Spec.
  Context {G : chg} {K : csr}.
  Notation bst := (bst G K).

  Definition elegs (t : bst) : list (leg G) := legs (bcs t) (bfs t).
  (** entry at a tuple of elementary indices *)
  Definition entry (ls : list (leg G)) (data : list K) (ix : list nat) : K :=
    if qdec (charge_of ls ix) qid then nth (pos ls ix) data r0 else r0.
  (** the tensor a block-sparse tensor stands for *)
  Definition dense_of (t : bst) : tensor K :=
    let gs := map (fun o => gather 0 (ldims (elegs t)) o) (bord t) in
    Tensor (map nprod gs) (fun I => entry (elegs t) (bdata t) (unperm 0 (concat (bord t)) (split_index gs I))).

  (** well-formed block-sparse tensors: as many flows as charges, charge objects without repeated
      or unused unique charges, one stored number per allowed entry, and an order in which every elementary leg occurs
      once and no group is empty *)
  Definition wf_bst (t : bst) : Prop :=
    length (bcs t) = length (bfs t) /\ (forall c, In c (bcs t) -> bc_ok c) /\
    length (bdata t) = length (allowed (elegs t)) /\
    is_perm (length (bcs t)) (concat (bord t)) /\ (forall o, In o (bord t) -> o <> []).

  (** elementary legs in a list of axes *)
  Definition con_legs (t : bst) (axes : list nat) : list nat := concat (gather [] (bord t) axes).
  (** axes that can be contracted: distinct, in range, of equal dimensions, elementary legs with opposite flows and equal charges *)
  Definition compatible (t1 t2 : bst) (axes1 axes2 : list nat) : Prop :=
    length axes1 = length axes2 /\ NoDup axes1 /\ NoDup axes2 /\
    (forall i, In i axes1 -> i < ndim t1) /\ (forall i, In i axes2 -> i < ndim t2) /\
    gather 0 (bshape t1) axes1 = gather 0 (bshape t2) axes2 /\
    length (con_legs t1 axes1) = length (con_legs t2 axes2) /\
    gather false (bfs t1) (con_legs t1 axes1) = map negb (gather false (bfs t2) (con_legs t2 axes2)) /\
    forallb (fun cc => charge_equal (fst cc) (snd cc)) (combine (gather (Raw []) (bcs t1) (con_legs t1 axes1)) (gather (Raw []) (bcs t2) (con_legs t2 axes2))) = true.
  (** elementary dimensions in the current order of the legs *)
  Definition flat_dims (t : bst) : list nat := gather 0 (ldims (elegs t)) (concat (bord t)).
  (** total charge of an entry of the dense tensor *)
  Definition dense_charge (t : bst) (I : list nat) : G :=
    charge_of (gather ([], false) (elegs t) (concat (bord t))) (split_index (map (gather 0 (ldims (elegs t))) (bord t)) I).
End Spec.

(** the shape [ns] arises by multiplying consecutive non-empty groups of [dims] *)
Definition groupable (ns dims : list nat) : Prop :=
  exists gs, concat gs = dims /\ map nprod gs = ns /\ (forall g, In g gs -> g <> []).
